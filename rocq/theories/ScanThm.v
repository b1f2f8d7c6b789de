(** Theorems about the scan of a package (C192). *)
From Coq Require Import List Arith Bool Lia.
From Verif Require Import ScanModel ScanSpec ScanProof.
Import ListNotations.

Lemma filter_length_le : forall (A : Type) (p : A -> bool) l, length (filter p l) <= length l.
Proof. intros A p. induction l as [|x l IH]; [reflexivity|]. cbn [filter]. destruct (p x); cbn [length]; lia. Qed.
Section World.
Variables (pkg : nat -> bool) (exports : nat -> option (list (nat * expr))) (stem : nat -> nat) (root dash : nat).
Hypothesis in_package : pkg root = true.
Lemma ok_root : ok pkg exports root (DModule root).
Proof. intros f F _ _. cbn in F. injection F as <-. constructor. Qed.
(** C192: the scan ends, also if modules export each other, after as many steps as there are files, and finds nothing exactly if the entry point cannot be loaded. *)
Theorem C192_ends : forall files, (forall f g, uses pkg exports f g -> In g files) -> forall fuel, 2 * length files + 3 <= fuel ->
  (module_docs pkg exports stem root dash fuel = None <-> exports root = None).
Proof.
  intros files CL fuel LE. unfold module_docs. destruct (exports root) as [es|] eqn:X; [|now split]. split; [|discriminate].
  destruct (def pkg exports stem root dash fuel (stem root) [] root (DModule root) {| aliases := []; extras := [] |}) as [((n, d, x, cs), s)|] eqn:D; [discriminate|].
  intros _. exfalso. revert D. apply (def_ends pkg exports stem root dash (root :: files)).
  - intros f g U. right. exact (CL f g U).
  - apply ok_root.
  - intros f F _ _. cbn in F. injection F as <-. now left.
  - cbn [need]. unfold left_. pose proof (filter_length_le _ (fun g => pkg g && negb (known g {| aliases := []; extras := [] |})) (root :: files)) as L. cbn [length] in L. lia.
Qed.
(** C192: what is found does not depend on how many steps are allowed. *)
Theorem C192_steps : forall fuel more r, module_docs pkg exports stem root dash fuel = Some r -> fuel <= more -> module_docs pkg exports stem root dash more = Some r.
Proof.
  intros fuel more r E LE. induction LE as [|more LE IH]; [exact E|]. unfold module_docs in *. destruct (exports root); [|discriminate].
  destruct (def pkg exports stem root dash more (stem root) [] root (DModule root) {| aliases := []; extras := [] |}) as [x|] eqn:D; [|discriminate]. now rewrite (def_more pkg exports stem root dash more _ _ _ _ _ _ D).
Qed.
(** The shape of the result. *)
Lemma docs_shape : forall fuel out al, module_docs pkg exports stem root dash fuel = Some (out, al) ->
  exists es cs s, exports root = Some es /\ out = mkInfo (stem root) (Some (DModule root)) false (cs ++ extras s) /\ al = aliases s
  /\ keeps pkg exports root {| aliases := []; extras := [] |} [mkInfo (stem root) (Some (DModule root)) false cs] s
  /\ done pkg exports (DModule root) s /\ Forall2 (child root) es cs /\ (cs = [] -> extras s = []).
Proof.
  intros fuel out al. unfold module_docs. destruct (exports root) as [es|] eqn:X; [|discriminate].
  destruct (def pkg exports stem root dash fuel (stem root) [] root (DModule root) {| aliases := []; extras := [] |}) as [((n, d, x, cs), s)|] eqn:D; [|discriminate].
  intros E. injection E as <- <-. destruct (good_all pkg exports stem root dash fuel _ _ _ _ _ _ _ ok_root D) as (K & DN & (cs' & H)).
  assert (XF : is_external root (DModule root) = false) by (unfold is_external; cbn; now rewrite Nat.eqb_refl).
  rewrite XF in H. injection H as -> -> -> ->. exists es, cs', s. split; [reflexivity|]. split; [reflexivity|]. split; [reflexivity|]. split; [exact K|]. split; [exact DN|].
  destruct fuel as [|k]; [discriminate|]. rewrite def_eq in D. unfold kids in D. rewrite in_package in D. cbn [known existsb aliases] in D. rewrite X in D.
  destruct (items (def pkg exports stem root dash k) [] root es (alias root [] {| aliases := []; extras := [] |})) as [(is, s2)|] eqn:I; [|discriminate]. cbv zeta in D. cbn [file_of] in D.
  destruct (items_keeps pkg exports stem root dash k [] root (good_all pkg exports stem root dash k) (fun h U => R_uses _ _ _ root h (R_root _ _ root) U) es X es _ _ _ (fun x H => H) I) as (KK & C & _).
  assert (KR : known root s2 = true) by (apply (k_known _ _ _ _ _ _ KK); rewrite known_alias, Nat.eqb_refl; apply orb_true_r).
  rewrite KR, andb_false_r in D. assert (W : is = cs' /\ s2 = s) by (inversion D; now split). destruct W as (-> & ->). split; [exact C|].
  intros ->. inversion C. subst es. cbn [items] in I. now injection I as <-.
Qed.
(** C192: every file of the package that can be reached by what is exported stands in the documentation with its definitions exactly once, and no other does; the files that have names are those. *)
Theorem C192_once : forall fuel out al, module_docs pkg exports stem root dash fuel = Some (out, al) -> forall f,
  (reached pkg exports root f -> exports f <> Some [] -> opens f out = 1)
  /\ (opens f out <> 0 -> reached pkg exports root f /\ pkg f = true)
  /\ (exports f <> None -> (In f (map fst al) <-> reached pkg exports root f)).
Proof.
  intros fuel out al E f. destruct (docs_shape fuel out al E) as (es & cs & s & X & -> & -> & K & DN & C & Z).
  assert (KN : forall g, known g s = true <-> In g (map fst (aliases s))).
  { intros g. unfold known. rewrite existsb_exists, in_map_iff. split; [intros (x & I & Q); apply Nat.eqb_eq in Q; now exists x|intros (x & Q & I); exists x; split; [exact I|now apply Nat.eqb_eq]]. }
  assert (CT : opens f (mkInfo (stem root) (Some (DModule root)) false (cs ++ extras s)) = shown exports f s).
  { pose proof (k_count _ _ _ _ _ _ K f) as N. rewrite total_cons in N. change (total f []) with 0 in N. cbn [extras] in N. change (total f []) with 0 in N. change (shown exports f {| aliases := []; extras := [] |}) with 0 in N.
    cbn [opens] in N |- *. rewrite map_app, list_sum_app. change (list_sum (map (opens f) (extras s))) with (total f (extras s)).
    destruct cs as [|c cs]; [rewrite (Z eq_refl) in *; cbn in *; lia|]. cbn [app]. lia. }
  assert (RE : forall g, known g s = true -> exports g <> None -> reached pkg exports root g) by (intros g G L; destruct (k_reach _ _ _ _ _ _ K g G L) as [H|H]; [discriminate|exact H]).
  assert (RK : forall g, reached pkg exports root g -> known g s = true /\ pkg g = true /\ exports g <> None).
  { intros g R. induction R as [|a b R (KA & _) U]; [split; [apply DN; [reflexivity|exact in_package|congruence]|split; [exact in_package|congruence]]|].
    destruct (k_closed _ _ _ _ _ _ K a KA) as [H|(_ & H)]; [discriminate|]. split; [now apply H|]. destruct U as (? & ? & ? & ? & ? & ? & ? & ? & P & L). now split. }
  split; [|split].
  - intros R NE. destruct (RK f R) as (KF & _ & L). rewrite CT. unfold shown, loads. rewrite KF. destruct (exports f) as [[|y r]|]; [contradiction|reflexivity|contradiction].
  - rewrite CT. unfold shown. destruct (known f s) eqn:KF; [|contradiction]. unfold loads. destruct (exports f) as [[|y r]|] eqn:XF; cbn; try contradiction. intros _. assert (R : reached pkg exports root f) by (apply RE; [exact KF|congruence]). split; [exact R|apply RK; exact R].
  - intros L. rewrite <- KN. split; [intros H; now apply RE|intros H; now apply RK].
Qed.
(** C192: the documentation shows of the entry point its exports by name and order, each external exactly if it is of another file, and then the modules that are not exported; and so in all modules in it. *)
Theorem C192_shows : forall fuel out al, module_docs pkg exports stem root dash fuel = Some (out, al) ->
  exists es cs extra, exports root = Some es /\ out = mkInfo (stem root) (Some (DModule root)) false (cs ++ extra)
  /\ Forall2 (child root) es cs /\ Forall (sound pkg exports) cs /\ Forall (sound pkg exports) extra.
Proof.
  intros fuel out al E. destruct (docs_shape fuel out al E) as (es & cs & s & X & O & A & K & DN & C & Z). exists es, cs, (extras s). split; [exact X|]. split; [exact O|]. split; [exact C|].
  split; [|apply (k_extras _ _ _ _ _ _ K); constructor]. pose proof (k_sound _ _ _ _ _ _ K) as S. inversion S as [|? ? T _]; subst. inversion T; [constructor|assumption].
Qed.
End World.
Print Assumptions C192_ends.
Print Assumptions C192_steps.
Print Assumptions C192_once.
Print Assumptions C192_shows.
(** C192 fails: a module that is exported stands without its definitions where it is exported, and with them among the modules that are not exported, if something of it is exported by a name before it. *)
Theorem C192_internal_refuted : exists pkg exports stem root dash f n m,
  pkg root = true /\ exports root = Some [(n, EDecl (DOther (Some f))); (m, EDecl (DModule f))] /\ exports f <> Some [] /\ n < m
  /\ exists one inner al, module_docs pkg exports stem root dash 9 = Some (mkInfo (stem root) (Some (DModule root)) false [one; mkInfo m (Some (DModule f)) true []; mkInfo (stem f) (Some (DModule f)) true inner], al)
  /\ inner <> [] /\ In (f, [n; dash; n]) al /\ In (f, [m]) al.
Proof.
  exists (fun _ => true), (fun g => match g with 0 => Some [(1, EDecl (DOther (Some 5))); (2, EDecl (DModule 5))] | 5 => Some [(1, EDecl (DOther (Some 5)))] | _ => None end), (fun f => f), 0, 8, 5, 1, 2.
  split; [reflexivity|]. split; [reflexivity|]. split; [discriminate|]. split; [lia|]. eexists _, _, _. split; [reflexivity|]. split; [discriminate|]. split; cbn; auto.
Qed.
Print Assumptions C192_internal_refuted.

(** Two modules that export each other. *)
Example C192_nonvacuous :
  let exports := fun g => match g with 0 => Some [(1, ERef (Some (EDecl (DModule 5)))); (2, ESelect)] | 5 => Some [(3, EDecl (DModule 0)); (4, EDecl (DOther (Some 6)))] | 6 => Some [] | _ => None end in
  let pkg := fun g => g <? 7 in
  (forall f g, uses pkg exports f g -> In g [0; 5; 6]) /\ reached pkg exports 0 5
  /\ module_docs pkg exports (fun f => f) 0 8 9 = Some (mkInfo 0 (Some (DModule 0)) false [mkInfo 1 (Some (DModule 5)) true [mkInfo 3 (Some (DModule 0)) true []; mkInfo 4 (Some (DOther (Some 6))) true []]; mkInfo 2 None false []; mkInfo 6 (Some (DModule 6)) true []],
       [(0, []); (5, [1]); (0, [1; 3]); (6, [1; 4; 8; 4])]).
Proof.
  cbv zeta. split; [|split; [|reflexivity]].
  - intros f g (es & n & e & d & _ & _ & _ & _ & _ & L). do 7 (destruct g as [|g]; [cbn; auto; try (exfalso; apply L; reflexivity)|]). exfalso. apply L. reflexivity.
  - apply (R_uses _ _ _ 0); [constructor|]. exists [(1, ERef (Some (EDecl (DModule 5)))); (2, ESelect)], 1, (ERef (Some (EDecl (DModule 5)))), (DModule 5). split; [reflexivity|]. split; [now left|]. split; [repeat constructor|]. split; [now left|]. split; [reflexivity|discriminate].
Qed.
