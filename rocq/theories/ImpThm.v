(** Theorems about imports (C190). *)
From Coq Require Import List Arith Bool Lia.
From Verif Require Import ImpModel ImpSpec ImpProof.
Import ListNotations.

(** C190: a path leads from the folder of the file, or from the root if it is absolute, and stays in the package; a package leads to the entrypoint that its manifest names. *)
Theorem C190_paths : forall parse entrypoint toml current, normal (snd current) ->
  let to := fun p f => resolve_id_by_path parse entrypoint toml current p = Some f in
  (forall q pkg e, to (PRelative q) (pkg, e) <-> pkg = fst current /\ reach (removelast (snd current)) q e)
  /\ (forall q pkg e, to (PAbsolute q) (pkg, e) <-> pkg = fst current /\ reach [] q e)
  /\ (forall t pkg e, to (PPackage t) (pkg, e) <-> exists spec p, parse t = Some spec /\ entrypoint spec = Some p /\ pkg = Some spec /\ reach [] p e)
  /\ (forall p f, to p f -> normal (snd f)).
Proof.
  intros parse entrypoint toml current N. cbv zeta. unfold resolve_id_by_path.
  assert (J : forall v q e, normal v -> (join v q = e <-> reach (removelast v) q e)).
  { intros v q e V. destruct (join_reach v q V) as (A & _). split; [intros <-; exact A|intros R; symmetry; eapply reach_fun; eauto]. }
  assert (V : forall q e, vpath q = e <-> reach [] q e).
  { intros q e. destruct (vpath_reach q) as (A & _). split; [intros <-; exact A|intros R; symmetry; eapply reach_fun; eauto]. }
  assert (T : normal [Nm toml]) by (now exists 0, [toml]).
  split; [|split; [|split]].
  - intros q pkg e. split; [intros E; injection E as <- E; split; [reflexivity|now apply J]|intros (-> & R); apply J in R; [now rewrite R|exact N]].
  - intros q pkg e. split; [intros E; injection E as <- E; split; [reflexivity|now apply V]|intros (-> & R); apply V in R; now rewrite R].
  - intros t pkg e. split.
    + destruct (parse t) as [spec|]; [|discriminate]. destruct (entrypoint spec) as [p|] eqn:P; [|discriminate]. intros E. injection E as <- E. exists spec, p. repeat split; [exact P|]. exact (proj1 (J _ _ _ T) E).
    + intros (spec & p & -> & -> & -> & R). apply (J [Nm toml] p e T) in R. now rewrite R.
  - intros [t|q|q] f E.
    + destruct (parse t) as [spec|]; [|discriminate]. destruct (entrypoint spec) as [p|]; [|discriminate]. injection E as <-. apply (join_reach [Nm toml] p T).
    + injection E as <-. apply vpath_reach.
    + injection E as <-. now apply join_reach.
Qed.
Print Assumptions C190_paths.
(** C190: a source is found exactly for a string that leads to a file that is there. *)
Theorem C190_source : forall parse entrypoint toml source current e x,
  find_source_by_expr parse entrypoint toml source current e = Some x <-> exists p f, e = Some p /\ resolve_id_by_path parse entrypoint toml current p = Some f /\ source f = Some x.
Proof.
  intros parse entrypoint toml source current [p|] x; unfold find_source_by_expr; [|split; [discriminate|intros (p & f & E & _); discriminate]].
  destruct (resolve_id_by_path parse entrypoint toml current p) as [f|] eqn:R.
  - split; [intros S; now exists p, f|intros (p' & f' & E & R' & S); injection E as <-; rewrite R in R'; now injection R' as ->].
  - split; [discriminate|]. intros (p' & f' & E & R' & _). injection E as <-. congruence.
Qed.
Print Assumptions C190_source.
(** C190: exactly the names are offered that are in the scope that the names before lead to and not imported from it, in the order there; and everything exactly if nothing is. *)
Theorem C190_items : forall existing comps v,
  let out := import_items existing comps (Some v) in
  import_items existing comps None = []
  /\ (forall n, In (Item n) out <-> exists s, leads v comps s /\ In n (map fst s) /\ ~ In (comps ++ [n]) existing)
  /\ (In Star out <-> existing = [] /\ exists s, leads v comps s)
  /\ (forall s, leads v comps s -> NoDup (map fst s) -> NoDup out)
  /\ (forall s, leads v comps s -> existing = [] -> out = Star :: map Item (map fst s)).
Proof.
  intros existing comps v. cbv zeta. unfold import_items. rewrite select_none. split; [reflexivity|]. pose proof (select_leads comps v) as L.
  destruct (match select (Some v) comps with Some w => scope_of w | None => None end) as [s|].
  - assert (LS : leads v comps s) by (now apply L).
    assert (U : forall t, leads v comps t -> t = s) by (intros t T; apply L in T; now injection T).
    set (keep := fun x : nat * val => negb (existsb (Nat.eqb (fst x)) (seen existing comps))).
    assert (K : forall x, keep x = true <-> ~ In (comps ++ [fst x]) existing).
    { intros x. unfold keep. rewrite <- seen_spec, negb_true_iff. split; [intros F I; assert (existsb (Nat.eqb (fst x)) (seen existing comps) = true) by (apply existsb_exists; exists (fst x); split; [exact I|apply Nat.eqb_refl]); congruence|].
      intros N. destruct (existsb (Nat.eqb (fst x)) (seen existing comps)) eqn:F; [|reflexivity]. exfalso. apply existsb_exists in F. destruct F as (y & I & Q). apply Nat.eqb_eq in Q. subst y. contradiction. }
    assert (IT : forall n, In (Item n) (map (fun x => Item (fst x)) (filter keep s)) <-> In n (map fst s) /\ ~ In (comps ++ [n]) existing).
    { intros n. rewrite !in_map_iff. split; [intros (x & E & I); injection E as <-; apply filter_In in I; destruct I as (I & Q); split; [now exists x|now apply K]|intros ((x & <- & I) & N); exists x; split; [reflexivity|apply filter_In; split; [exact I|now apply K]]]. }
    assert (NS : ~ In Star (map (fun x => Item (fst x)) (filter keep s))) by (intros I; apply in_map_iff in I; destruct I as (x & E & _); discriminate).
    split; [|split; [|split]].
    + intros n. rewrite in_app_iff, IT. split; [intros [I|I]; [destruct existing; [destruct I as [I|[]]; discriminate|destruct I]|exists s; now split]|]. intros (t & T & I). rewrite (U t T) in I. now right.
    + rewrite in_app_iff. split; [intros [I|I]; [|contradiction]; destruct existing; [split; [reflexivity|now exists s]|destruct I]|]. intros (-> & _). left. now left.
    + intros t T N. rewrite (U t T) in N. assert (M : NoDup (map (fun x => Item (fst x)) (filter keep s))).
      { clear - N. clearbody keep. induction s as [|x r IH]; [constructor|]. cbn in N. inversion N as [|? ? A B]; subst. cbn [filter]. destruct (keep x); [|now apply IH]. cbn [map]. constructor; [|now apply IH]. intros I. apply in_map_iff in I. destruct I as (y & E & I). injection E as E. apply filter_In in I. apply A. rewrite <- E. apply in_map. apply I. }
      destruct existing; [cbn [app]; constructor; [exact NS|exact M]|exact M].
    + intros t T ->. rewrite (U t T). cbn [app]. f_equal. unfold keep. cbn [seen flat_map existsb negb]. clear. rewrite map_map. f_equal. induction s as [|x r IH]; [reflexivity|]. cbn. now rewrite IH.
  - split; [intros n; split; [intros []|intros (s & S & _); apply L in S; discriminate]|]. split; [split; [intros []|intros (_ & s & S); apply L in S; discriminate]|]. split; [intros s S; apply L in S; discriminate|intros s S; apply L in S; discriminate].
Qed.
Print Assumptions C190_items.
(** C190: items are offered at the colon, behind the list on the same line, at a comma and for a name or a dot, there of what the names before lead to; a name is replaced from its start, and commas and spaces are put between. *)
Theorem C190_spots : forall cursor source items,
  let offers := fun before from around s => complete_imports cursor s source = Some (import_items items before source, from, around) in
  complete_imports cursor (AtColon None) source = None
  /\ (items = [] -> offers [] cursor (false, false) (AtColon (Some items)))
  /\ (items <> [] -> offers [] cursor (false, true) (AtColon (Some items)))
  /\ offers [] cursor (false, false) (Behind false items)
  /\ complete_imports cursor (Behind true items) source = None
  /\ offers [] cursor (true, false) (AtComma items)
  /\ (forall start before, offers before start (false, false) (InPath true start before items))
  /\ (forall start before, offers before cursor (false, false) (InPath false start before items))
  /\ complete_imports cursor Elsewhere source = None.
Proof. intros cursor source items. cbv zeta. repeat split; [intros ->; reflexivity|]. intros N. destruct items; [contradiction|reflexivity]. Qed.
Print Assumptions C190_spots.
(** C190 fails: a name that has been written in full is not offered at its own place, as it counts as imported already. *)
Theorem C190_typed_refuted : exists v n m s start, leads v [] s /\ In n (map fst s) /\
  exists out from around, complete_imports 9 (InPath true start [] [[n]]) (Some v) = Some (out, from, around) /\ ~ In (Item n) out /\ In (Item m) out.
Proof.
  exists (mkVal (Some [(1, mkVal None); (2, mkVal None)])), 1, 2, [(1, mkVal None); (2, mkVal None)], 7. split; [constructor|]. split; [now left|].
  exists [Item 2], 7, (false, false). split; [reflexivity|]. split; [intros [E|[]]; discriminate|now left].
Qed.
Print Assumptions C190_typed_refuted.

(** From a/b.typ the path ../../c leads above the root; a module in a module. *)
Example C190_nonvacuous :
  normal [Nm 1; Nm 2]
  /\ resolve_id_by_path (fun _ => None) (fun _ => None) 0 (Some 4, [Nm 1; Nm 2]) (PRelative [Up; Up; Nm 3]) = Some (Some 4, [Up; Nm 3])
  /\ resolve_id_by_path (fun t => Some t) (fun _ => Some [Nm 5; Up; Nm 6]) 0 (None, [Nm 1]) (PPackage 7) = Some (Some 7, [Nm 6])
  /\ let v := mkVal (Some [(1, mkVal (Some [(2, mkVal None); (3, mkVal None)]))]) in
     leads v [1] [(2, mkVal None); (3, mkVal None)] /\ import_items [[1; 2]; [3]; [1]] [1] (Some v) = [Item 3].
Proof.
  split; [now exists 0, [1; 2]|]. split; [reflexivity|]. split; [reflexivity|]. cbv zeta. split; [|reflexivity].
  eapply (L_in _ 1 (mkVal (Some [(2, mkVal None); (3, mkVal None)])) [] _ [] []); [reflexivity|intros x []|constructor].
Qed.
