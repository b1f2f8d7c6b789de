(** Theorems about what is in scope and which fields there are (C191). *)
From Coq Require Import List Arith Bool Lia.
From Verif Require Import DefModel DefSpec DefProof.
Import ListNotations.

Section World.
Variables (fields_on : nat -> list nat) (type_scope : nat -> list (nat * nat)) (takes_self : nat -> bool).
Variables (elem_fields : nat -> list field) (elem_scope : nat -> list (nat * nat)) (func_scope : nat -> option (list (nat * nat))).
Variables (exports : nat -> option (list (nat * ty))) (module_scope : nat -> option (list (nat * nat))) (value_scope : nat -> list (nat * nat)).
Variables (func array : nat).
(** C191: every interface has a list of fields, and one of what importing everything brings. *)
Theorem C191_total : forall i,
  (exists l, accesses fields_on type_scope takes_self elem_fields exports module_scope value_scope func array i l)
  /\ (exists l, imports type_scope elem_scope func_scope exports module_scope value_scope i l).
Proof.
  assert (M : forall a t, exists l, methods fields_on type_scope takes_self a t l).
  { intros a t. unfold methods. assert (B : exists ms, Forall2 (bound takes_self a) (type_scope t) ms).
    { induction (type_scope t) as [|(n, v) s (ms & IH)]; [exists []; constructor|]. destruct (takes_self v) eqn:T; [exists ((n, TWith v a) :: ms)|exists ((n, TVal v) :: ms)]; constructor; try exact IH; now constructor. }
    destruct B as (ms & B). now exists (map (fun n => (n, TAny)) (fields_on t) ++ ms), ms. }
  assert (F : forall e, exists l, Forall2 typed (elem_fields e) l).
  { intros e. induction (elem_fields e) as [|(n, p, s) fs (l & IH)]; [exists []; constructor|]. destruct p as [(doc, p)|], s as [s|]; eexists (_ :: l); constructor; try exact IH; constructor. }
  intros [t|t|t l|e|t|t a|f a|l|m|m]; split.
  - destruct (M t array) as (l & L). exists l. now constructor.
  - exists []. constructor.
  - destruct (M t array) as (l & L). exists l. now constructor.
  - exists []. constructor.
  - exists l. constructor.
  - exists []. constructor.
  - destruct (F e) as (l & L). exists l. now constructor.
  - eexists. constructor.
  - eexists. constructor.
  - eexists. constructor.
  - destruct (M a t) as (l & L). exists l. now constructor.
  - eexists. constructor.
  - destruct (M a func) as (l & L). exists l. now constructor.
  - destruct (func_scope f) eqn:E; [eexists; eapply M_func; exact E|eexists; eapply M_bare; exact E].
  - eexists. constructor.
  - eexists. constructor.
  - destruct (exports m) eqn:E; [eexists; eapply A_module; exact E|]. destruct (module_scope m) eqn:G; [eexists; eapply A_invalid; [exact E|exact G]|eexists; eapply A_broken; [exact E|exact G]].
  - destruct (exports m) eqn:E; [eexists; eapply M_module; exact E|]. destruct (module_scope m) eqn:G; [eexists; eapply M_invalid; [exact E|exact G]|eexists; eapply M_broken; [exact E|exact G]].
  - eexists. constructor.
  - eexists. constructor.
Qed.
(** C191: the fields offered for a type are those of its interfaces, of the same name the first one's, sorted and without empty names. *)
Theorem C191_fields : forall is ls, Forall2 (accesses fields_on type_scope takes_self elem_fields exports module_scope value_scope func array) is ls ->
  let out := fst (fields fields_on type_scope takes_self elem_fields elem_scope func_scope exports module_scope value_scope func array is) in
  proper 0 out /\ forall n t, In (n, t) out <-> n <> 0 /\ first n t (concat ls).
Proof.
  intros is ls F. cbv zeta. unfold fields.
  assert (E : forall s, effect (concat ls) (fst s) (fst (fold_left (fun s i => check fields_on type_scope takes_self elem_fields elem_scope func_scope exports module_scope value_scope func array FieldAccess i s) is s))).
  { induction F as [|i l is ls A F IH]; intros s; [apply effect_nil|]. cbn [fold_left concat]. eapply effect_app; [|apply IH]. now apply access_effect. }
  destruct (E ([], [])) as (P & Q). cbn [fst] in P, Q. split; [now apply P|]. intros n t. rewrite (Q I n t). cbn [map In]. split; [intros [[]|(_ & H)]; exact H|intros H; right; split; [intros []|exact H]].
Qed.
(** C191: what is in scope are the declarations before, the nearest of a name first, then the library's names, those of math in math, and then std; sorted and without empty names. *)
Theorem C191_scope : forall decls ls in_math math global std std_value,
  Forall2 (brings type_scope elem_scope func_scope exports module_scope value_scope) decls ls ->
  let out := scope_defs fields_on type_scope takes_self elem_fields elem_scope func_scope exports module_scope value_scope func array decls in_math math global std std_value in
  proper 0 out /\ (forall n t, In (n, t) out <-> n <> 0 /\ first n t (concat ls ++ vals (if in_math then math else global) ++ [(std, TVal std_value)])).
Proof.
  intros decls ls in_math math global std std_value F. cbv zeta. unfold scope_defs.
  assert (E : forall s, effect (concat ls) (fst s) (fst (fold_left (declare fields_on type_scope takes_self elem_fields elem_scope func_scope exports module_scope value_scope func array) decls s))).
  { induction F as [|x l decls ls B F IH]; intros s; [apply effect_nil|]. cbn [fold_left concat]. eapply effect_app; [|apply IH].
    destruct B as [n t|n|n t| |is js G|]; cbn [declare fst]; [apply effect_one|apply effect_one|apply effect_one|apply effect_nil| |apply effect_nil].
    clear - G. revert s. induction G as [|i j is js A G IH]; intros s; [apply effect_nil|]. cbn [fold_left concat]. eapply effect_app; [|apply IH]. now apply import_effect. }
  assert (A : effect (concat ls ++ vals (if in_math then math else global) ++ [(std, TVal std_value)]) [] (insert std (TVal std_value) (insert_scope (if in_math then math else global) (fst (fold_left (declare fields_on type_scope takes_self elem_fields elem_scope func_scope exports module_scope value_scope func array) decls ([], [])))))).
  { eapply effect_app; [exact (E ([], []))|]. eapply effect_app; [apply effect_scope|apply effect_one]. }
  destruct A as (P & Q). split; [now apply P|]. intros n t. rewrite (Q I n t). cbn [map In]. split; [intros [[]|(_ & H)]; exact H|intros H; right; split; [intros []|exact H]].
Qed.
(** C191, in part: the documentation of the fields of one element is that of its parameters. Missing: several elements. *)
Theorem C191_docs_partial : forall e, NoDup (map f_name (elem_fields e)) -> forall n doc,
  In (n, doc) (snd (fields fields_on type_scope takes_self elem_fields elem_scope func_scope exports module_scope value_scope func array [IContent e]))
  <-> exists f p, In f (elem_fields e) /\ f_name f = n /\ f_param f = Some (doc, p).
Proof.
  intros e N n doc. unfold fields. cbn [fold_left check]. unfold elem_defs.
  assert (L : forall k w d, (forall x, In x d -> fst x <> k) -> forall y, In y (put_doc k w d) <-> y = (k, w) \/ In y d).
  { intros k w d. induction d as [|(m, u) r IH]; intros K y; cbn [put_doc]; [cbn; intuition congruence|]. destruct (k <? m); [cbn; intuition congruence|]. destruct (k =? m) eqn:Q.
    - apply Nat.eqb_eq in Q. exfalso. apply (K (m, u)); [now left|now symmetry].
    - cbn [In]. rewrite IH by (intros x X; apply K; now right). intuition congruence. }
  assert (G : forall fs s, NoDup (map f_name fs) -> (forall x f, In x (snd s) -> In f fs -> fst x <> f_name f) ->
    (In (n, doc) (snd (fold_left (fun s f => (insert (f_name f) (field_ty f) (fst s), match f_param f with Some (doc, _) => put_doc (f_name f) doc (snd s) | None => snd s end)) fs s))
     <-> In (n, doc) (snd s) \/ exists f p, In f fs /\ f_name f = n /\ f_param f = Some (doc, p))).
  { induction fs as [|f fs IH]; intros s M D; cbn [fold_left].
    - split; [now left|intros [H|(f & p & [] & _)]; exact H].
    - cbn in M. inversion M as [|? ? M1 M2]; subst.
      assert (D1 : forall x, In x (snd s) -> fst x <> f_name f) by (intros x X; apply D; [exact X|now left]).
      rewrite IH; [|exact M2|]; cbn [snd].
      + destruct (f_param f) as [(doc', p')|] eqn:P.
        * rewrite (L _ _ _ D1). split.
          -- intros [[E|H]|(g & p & X & Y)]; [injection E as -> ->; right; exists f, p'; split; [now left|now split]|now left|right; exists g, p; split; [now right|exact Y]].
          -- intros [H|(g & p & [<-|X] & Y & Z)]; [now left; right| |right; now exists g, p]. rewrite P in Z. injection Z as -> ->. left. left. now rewrite Y.
        * split; [intros [H|(g & p & X & Y)]; [now left|right; exists g, p; split; [now right|exact Y]]|intros [H|(g & p & [<-|X] & Y & Z)]; [now left|congruence|right; now exists g, p]].
      + intros x g X Y. assert (NE : f_name f <> f_name g) by (intros Q; apply M1; rewrite Q; now apply in_map).
        destruct (f_param f) as [(doc', p')|]; [apply (L _ _ _ D1) in X; destruct X as [->|X]; [exact NE|]|]; (apply D; [exact X|now right]). }
  rewrite (G (elem_fields e) ([], []) N); [|intros x f []]. cbn [snd In]. split; [intros [[]|H]; exact H|now right].
Qed.
End World.
Print Assumptions C191_total.
Print Assumptions C191_fields.
Print Assumptions C191_scope.
Print Assumptions C191_docs_partial.
(** C191 fails: of a type that is one of two elements a field has the type of the first and the documentation of the second. *)
Theorem C191_docs_refuted : exists elem_fields, 
  let out := fields (fun _ => []) (fun _ => []) (fun _ => false) elem_fields (fun _ => []) (fun _ => None) (fun _ => None) (fun _ => None) (fun _ => []) 0 0 [IContent 1; IContent 2] in
  exists n t u doc doc', elem_fields 1 = [{| f_name := n; f_param := Some (doc, t); f_style := None |}] /\ elem_fields 2 = [{| f_name := n; f_param := Some (doc', u); f_style := None |}]
  /\ t <> u /\ doc <> doc' /\ out = ([(n, t)], [(n, doc')]).
Proof.
  exists (fun e => [{| f_name := 5; f_param := Some (e, TOther e); f_style := None |}]). cbv zeta. exists 5, (TOther 1), (TOther 2), 1, 2. repeat split; discriminate.
Qed.
Print Assumptions C191_docs_refuted.
(** C191 fails: for a dictionary whose fields are known its methods are not offered, although there is code for it, and those of arrays are. *)
Theorem C191_dict_refuted : exists type_scope array dict key a,
  let out := fun i => map fst (fst (fields (fun _ => []) type_scope (fun _ => true) (fun _ => []) (fun _ => []) (fun _ => None) (fun _ => None) (fun _ => None) (fun _ => []) 0 array [i])) in
  (forall m, In m (map fst (type_scope array)) -> In m (out (IArray a))) /\ type_scope array <> []
  /\ out (IDict a [(key, TAny)]) = [key] /\ exists m, m <> key /\ In m (map fst (type_scope dict)).
Proof.
  exists (fun t => [(t, 9)]), 3, 4, 7, TAny. cbv zeta. split; [intros m M; exact M|]. split; [discriminate|]. split; [reflexivity|]. exists 4. split; [lia|now left].
Qed.
Print Assumptions C191_dict_refuted.

(** A name declared twice, one from a module, and a name of the library that is shadowed. *)
Example C191_nonvacuous :
  Forall2 (brings (fun _ => []) (fun _ => []) (fun _ => None) (fun _ => Some [(2, TOther 8); (4, TOther 9)]) (fun _ => None) (fun _ => [])) [DIdent 2 None; DAll (Some [IModule 1]); DSource None] [[(2, TAny)]; concat [[(2, TOther 8); (4, TOther 9)]]; []]
  /\ scope_defs (fun _ => []) (fun _ => []) (fun _ => false) (fun _ => []) (fun _ => []) (fun _ => None) (fun _ => Some [(2, TOther 8); (4, TOther 9)]) (fun _ => None) (fun _ => []) 0 0
       [DIdent 2 None; DAll (Some [IModule 1]); DSource None] false [] [(1, 7); (4, 6)] 3 5 = [(1, TVal 7); (2, TAny); (3, TVal 5); (4, TOther 9)].
Proof. split; [|reflexivity]. repeat constructor. Qed.
