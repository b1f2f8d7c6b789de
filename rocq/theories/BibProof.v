(** Proofs about the bibliography. *)
From Coq Require Import List Arith NArith Bool Lia.
From Verif Require Import BibModel BibSpec.
Import ListNotations.

Section NodeInd.
  Variable P : node -> Prop.
  Hypothesis Hs : forall s a, P (NScalar s a).
  Hypothesis Hm : forall l e, (forall p, In p l -> P (fst p) /\ P (snd p)) -> P (NMap l e).
  Hypothesis Hq : forall l, (forall x, In x l -> P x) -> P (NSeq l).
  Hypothesis Ha : P NAlias.
  Fixpoint node_ind2 (n : node) : P n.
  Proof.
    destruct n as [s a|l e|l|]; [apply Hs| | |apply Ha].
    - apply Hm. induction l as [|(k, v) l IH]; intros p Hp; [destruct Hp|]. destruct Hp as [<-|Hp]; [split; apply node_ind2|apply IH, Hp].
    - apply Hq. induction l as [|x l IH]; intros p Hp; [destruct Hp|]. destruct Hp as [<-|Hp]; [apply node_ind2|apply IH, Hp].
  Defined.
End NodeInd.

Lemma load_app l es1 es2 : load l (es1 ++ es2) = match load l es1 with Some l' => load l' es2 | None => None end.
Proof. revert l. induction es1 as [|e es1 IH]; intros l; auto. cbn. destruct (on_event l e); auto. Qed.

(** Inside an entry nothing changes. *)
Lemma load_deep : forall n l, 2 <= depth l -> load l (sent n) = Some l.
Proof.
  assert (Hflat : forall A (g : A -> list event) (xs : list A), (forall x, In x xs -> forall l, 2 <= depth l -> load l (g x) = Some l) ->
    forall l, 2 <= depth l -> load l (flat_map g xs) = Some l).
  { intros A g xs. induction xs as [|x xs IH]; intros H l Hl; auto. cbn. rewrite load_app, H by (auto; left; auto). apply IH; auto. intros y Hy. apply H. right; auto. }
  induction n as [s a|m e IH|m IH|] using node_ind2; intros l Hl.
  - cbn. destruct (Nat.eqb_spec (depth l) 1); [lia|]. auto.
  - cbn [sent load on_event]. destruct (Nat.eqb_spec (depth l) 1); [lia|]. rewrite load_app, Hflat.
    + cbn. destruct (Nat.eqb_spec (depth l) 1); [lia|]. destruct l; auto.
    + intros p Hp l' Hl'. destruct (IH p Hp) as (H1 & H2). rewrite load_app, H1 by auto. auto.
    + cbn. lia.
  - cbn [sent load on_event]. rewrite load_app, Hflat; auto.
  - auto.
Qed.

(** At the level of the names. *)
Definition item (l : loader) (n : node) : loader :=
  match n with
  | NScalar s a => {| depth := 1; start := None; key := Some {| value := s; from_ := a; to_ := a + length s |}; found := found l |}
  | NMap _ e => {| depth := 1; start := None; key := None; found := match key l with Some k => found l ++ [(k, (from_ k, e))] | None => found l end |}
  | _ => l
  end.
Definition level (l : loader) : Prop := depth l = 1 /\ start l = None.
Lemma item_level l n : level l -> level (item l n).
Proof. destruct n; cbn; auto; intros _; split; auto. Qed.
Lemma items_level ns : forall l, level l -> level (fold_left item ns l).
Proof. induction ns as [|n ns IH]; intros l Hl; auto. apply IH, item_level. auto. Qed.
Lemma load_flat : forall A (g : A -> list event) (h : A -> list node) (xs : list A),
  (forall x, In x xs -> forall l, level l -> load l (g x) = Some (fold_left item (h x) l)) ->
  forall l, level l -> load l (flat_map g xs) = Some (fold_left item (flat_map h xs) l).
Proof.
  intros A g h xs. induction xs as [|x xs IH]; intros H l Hl; auto. cbn. rewrite load_app, H by (auto; left; auto).
  rewrite fold_left_app. apply IH; [|apply items_level; auto]. intros y Hy. apply H. right; auto.
Qed.
Lemma load_level : forall n l, level l -> load l (sent n) = Some (fold_left item (flat n) l).
Proof.
  induction n as [s a|m e IH|m IH|] using node_ind2; intros l Hl.
  - destruct Hl as (Hd & Hs). cbn. rewrite Hd, Hs. auto.
  - destruct Hl as (Hd & Hs). cbn [sent load on_event flat fold_left]. rewrite Hd. cbn [Nat.eqb]. rewrite load_app.
    assert (X : forall xs l', 2 <= depth l' -> load l' (flat_map (fun p => sent (fst p) ++ sent (snd p)) xs) = Some l').
    { induction xs as [|x xs IHx]; intros l' Hl'; auto. cbn. rewrite !load_app, !load_deep by auto. auto. }
    rewrite X by (cbn; lia). cbn. auto.
  - cbn [sent load on_event flat]. rewrite load_app. rewrite (load_flat _ sent flat); auto.
  - auto.
Qed.

(** Outside of all mappings. *)
Definition outer (l : loader) : Prop := depth l = 0 /\ start l = None.
Definition out (l : loader) : loader := {| depth := 0; start := start l; key := key l; found := found l |}.
Definition into (l : loader) : loader := {| depth := 1; start := start l; key := key l; found := found l |}.
Lemma load_outer : forall n l, outer l -> load l (sent n) = Some (out (fold_left item (flat_map inner (flat n)) (into l))).
Proof.
  assert (Hflat : forall (xs : list node), (forall x, In x xs -> forall l, outer l -> load l (sent x) = Some (out (fold_left item (flat_map inner (flat x)) (into l)))) ->
    forall l, outer l -> load l (flat_map sent xs) = Some (out (fold_left item (flat_map inner (flat_map flat xs)) (into l)))).
  { induction xs as [|x xs IH]; intros H l Hl.
    - cbn. destruct Hl as (Hd & Hs). unfold out, into. cbn. destruct l; cbn in *. subst. auto.
    - cbn. rewrite load_app, H by (auto; left; auto). rewrite flat_map_app, fold_left_app.
      assert (HL : level (fold_left item (flat_map inner (flat x)) (into l))) by (apply items_level; destruct Hl; split; auto).
      rewrite IH.
      + f_equal. f_equal. f_equal. destruct HL as (E1 & E2). unfold into, out. cbn. destruct (fold_left item (flat_map inner (flat x)) _); cbn in *. subst. auto.
      + intros y Hy. apply H. right; auto.
      + destruct HL as (E1 & E2). split; auto. }
  induction n as [s a|m e IH|m IH|] using node_ind2; intros l Hl.
  - destruct Hl as (Hd & Hs). cbn. rewrite Hd. cbn. unfold out, into. cbn. destruct l; cbn in *. subst. auto.
  - destruct Hl as (Hd & Hs). cbn [sent load on_event flat flat_map inner app]. rewrite Hd. cbn [Nat.eqb]. rewrite app_nil_r, load_app.
    change {| depth := 1; start := start l; key := key l; found := found l |} with (into l).
    rewrite (load_flat _ _ (fun p => flat (fst p) ++ flat (snd p))).
    + set (l2 := fold_left item _ (into l)). assert (HL : level l2) by (apply items_level; split; auto). destruct HL as (E1 & E2). cbn. rewrite E1. auto.
    + intros p Hp l' Hl'. rewrite load_app, load_level, load_level; auto; [|apply items_level; auto]. rewrite fold_left_app. auto.
    + split; auto.
  - cbn [sent load on_event flat]. rewrite load_app, Hflat; auto.
  - cbn. destruct Hl as (Hd & Hs). unfold out, into. cbn. destruct l; cbn in *. subst. auto.
Qed.

Definition mark (x : text * nat * nat) : named * (nat * nat) :=
  let '(s, a, e) := x in ({| value := s; from_ := a; to_ := a + length s |}, (a, e)).

Definition solid (n : node) : Prop := match n with NScalar _ _ | NMap _ _ => True | _ => False end.
Lemma flat_solid : forall n, Forall solid (flat n).
Proof.
  induction n as [s a|m e IH|m IH|] using node_ind2; cbn; auto; try (constructor; cbn; auto; fail).
  apply Forall_forall. intros x Hx. apply in_flat_map in Hx. destruct Hx as (y & Hy & Hx). specialize (IH y Hy). rewrite Forall_forall in IH. auto.
Qed.
Lemma parts_solid ds : Forall solid (parts ds).
Proof.
  apply Forall_forall. intros x Hx. apply in_flat_map in Hx. destruct Hx as (d & _ & Hx). apply in_flat_map in Hx. destruct Hx as (y & _ & Hx).
  destruct y; cbn in Hx; try contradiction. apply in_flat_map in Hx. destruct Hx as (p & _ & Hx). apply in_app_iff in Hx.
  destruct Hx as [Hx|Hx]; [pose proof (flat_solid (fst p)) as F|pose proof (flat_solid (snd p)) as F]; rewrite Forall_forall in F; auto.
Qed.
Lemma items_found : forall ns o, named_maps ns o -> Forall solid ns -> forall l, (key l = None \/ forall m e r, ns <> NMap m e :: r) ->
  found (fold_left item ns l) = found l ++ map mark o.
Proof.
  induction 1 as [|s a m e r o H IH|x r o Hx H IH]; intros HS l Hk.
  - cbn. rewrite app_nil_r. auto.
  - cbn [fold_left]. inversion HS; subst. inversion H3; subst. rewrite IH; auto. cbn. rewrite <- app_assoc. auto.
  - inversion HS; subst. cbn [fold_left]. destruct x as [s a|m e|m|]; cbn in H2; try contradiction.
    + rewrite IH; auto. right. intros m e r' ->. eapply Hx. reflexivity.
    + destruct Hk as [Hk|Hk]; [|exfalso; eapply Hk; reflexivity]. rewrite IH; auto. cbn. rewrite Hk. auto.
Qed.
Lemma named_exists : forall ns, exists o, named_maps ns o.
Proof.
  intros ns. assert (X : forall k ns, length ns <= k -> exists o, named_maps ns o); [|apply (X (length ns) ns); auto].
  induction k as [|k IH]; intros l Hl.
  - destruct l; [exists []; constructor|cbn in Hl; lia].
  - destruct l as [|x l]; [exists []; constructor|]. cbn in Hl. destruct (IH l ltac:(lia)) as (o & Ho).
    assert (Y : (forall s a m e r', x :: l <> NScalar s a :: NMap m e :: r') -> exists o, named_maps (x :: l) o) by (intros Y; exists o; constructor; auto).
    destruct x as [s a|m e|m|]; try (apply Y; discriminate). destruct l as [|y l]; [apply Y; discriminate|]. destruct y as [s' a'|m e|m|]; try (apply Y; discriminate).
    cbn in Hl. destruct (IH l ltac:(lia)) as (o' & Ho'). exists ((s, a, e) :: o'). constructor. auto.
Qed.
Lemma named_fun : forall ns o, named_maps ns o -> forall o', named_maps ns o' -> o = o'.
Proof.
  induction 1 as [|s a m e r o H IH|x r o Hx H IH]; intros o' H'; inversion H' as [|s' a' m' e' r' o2 H2|x' r' o2 Hx' H2]; subst; auto.
  - f_equal. auto.
  - exfalso. eapply Hx'. reflexivity.
  - exfalso. eapply Hx. reflexivity.
Qed.

Lemma load_docs : forall ds l, outer l ->
  load l (flat_map (fun d => Other :: sent d ++ [Other]) ds) = Some (out (fold_left item (parts ds) (into l))).
Proof.
  induction ds as [|d ds IH]; intros l Hl.
  - cbn. destruct Hl as (Hd & Hs). unfold out, into. cbn. destruct l; cbn in *. subst. auto.
  - cbn [flat_map app load on_event]. rewrite load_app, load_app, load_outer by auto. cbn [load on_event].
    unfold parts in *. cbn [flat_map]. rewrite fold_left_app.
    assert (HL : level (fold_left item (flat_map inner (flat d)) (into l))) by (apply items_level; destruct Hl; split; auto).
    destruct HL as (E1 & E2). rewrite IH by (split; auto). f_equal. f_equal. f_equal. unfold into, out. cbn. destruct (fold_left item (flat_map inner (flat d)) _); cbn in *. subst. auto.
Qed.
Lemma load_stream ds o : named_maps (parts ds) o -> exists l, load fresh (stream ds) = Some l /\ found l = map mark o.
Proof.
  intros H. unfold stream. cbn [load on_event]. rewrite load_app, load_docs by (split; auto). cbn [load on_event].
  eexists. split; [reflexivity|]. cbn [out found]. rewrite (items_found _ o); auto. apply parts_solid.
Qed.

(** A part of the events gives a part of the entries. *)
Lemma step_grows l e l' : on_event l e = Some l' -> exists more, found l' = found l ++ more.
Proof.
  destruct e as [|s a|a|]; cbn; intros H.
  - destruct (depth l =? 1); injection H as <-; exists []; cbn; rewrite app_nil_r; auto.
  - destruct (depth l =? 1); injection H as <-; exists []; cbn; rewrite app_nil_r; auto.
  - destruct (depth l) as [|d]; [discriminate|]. destruct (d =? 1); injection H as <-; cbn.
    + destruct (start l); eauto. exists []. rewrite app_nil_r. auto.
    + exists []. rewrite app_nil_r. auto.
  - injection H as <-. exists []. rewrite app_nil_r. auto.
Qed.
Lemma load_grows : forall es l l', load l es = Some l' -> exists more, found l' = found l ++ more.
Proof.
  induction es as [|e es IH]; intros l l' H; cbn in H.
  - injection H as <-. exists []. rewrite app_nil_r. auto.
  - destruct (on_event l e) as [l1|] eqn:E; [|discriminate]. apply step_grows in E. destruct E as (m1 & E1). destruct (IH _ _ H) as (m2 & E2).
    exists (m1 ++ m2). rewrite E2, E1, app_assoc. auto.
Qed.
Lemma load_prefix es1 es2 l : load fresh (es1 ++ es2) = Some l -> exists l1 more, load fresh es1 = Some l1 /\ found l = found l1 ++ more.
Proof.
  rewrite load_app. destruct (load fresh es1) as [l1|]; [|discriminate]. intros H. destruct (load_grows _ _ _ H) as (m & E). eauto.
Qed.

(** * Offsets *)

Lemma width_ok c n : width c n <-> n = len_utf8 c.
Proof.
  unfold width, len_utf8. destruct (N.ltb_spec c 128); [|destruct (N.ltb_spec c 2048); [|destruct (N.ltb_spec c 65536)]]; lia.
Qed.
Definition size (s : text) : nat := fold_right (fun c n => len_utf8 c + n) 0 s.
Lemma bytes_ok s n : bytes s n <-> n = size s.
Proof.
  split.
  - induction 1 as [|c s n k Hw H IH]; auto. apply width_ok in Hw. subst. auto.
  - revert n. induction s as [|c s IH]; intros n ->; [constructor|]. cbn. constructor; [apply width_ok; auto|auto].
Qed.
Lemma at_ok s n b : at_byte s n b <-> n <= length s /\ b = size (firstn n s).
Proof.
  unfold at_byte. split.
  - intros (u & v & -> & <- & Hb). apply bytes_ok in Hb. rewrite app_length. split; [lia|]. rewrite firstn_app, firstn_all, Nat.sub_diag, firstn_O, app_nil_r. auto.
  - intros (H & ->). exists (firstn n s), (skipn n s). rewrite firstn_skipn. split; auto. split; [apply firstn_length_le; auto|apply bytes_ok; auto].
Qed.

Fixpoint above (n : nat) (l : list nat) : Prop := match l with [] => True | x :: l' => n <= x /\ above (S x) l' end.
Lemma insert_in n x : forall l, In x (insert n l) <-> x = n \/ In x l.
Proof.
  induction l as [|y l IH]; cbn; [intuition|]. destruct (n <=? y); cbn; [intuition|]. rewrite IH. intuition.
Qed.
Lemma sort_in x : forall l, In x (sort l) <-> In x l.
Proof. induction l as [|y l IH]; cbn; [intuition|]. unfold sort in *. cbn. rewrite insert_in, IH. intuition. Qed.
Inductive sorted : list nat -> Prop :=
| sorted_nil : sorted []
| sorted_cons x l : (forall y, In y l -> x <= y) -> sorted l -> sorted (x :: l).
Lemma insert_sorted n : forall l, sorted l -> sorted (insert n l).
Proof.
  induction 1 as [|x l Hx Hl IH]; cbn.
  - constructor; [intros y []|constructor].
  - destruct (Nat.leb_spec n x).
    + constructor; [|constructor; auto]. intros y [<-|Hy]; auto. specialize (Hx y Hy). lia.
    + constructor; auto. intros y Hy. apply insert_in in Hy. destruct Hy as [->|Hy]; auto. lia.
Qed.
Lemma sort_sorted l : sorted (sort l).
Proof. induction l as [|x l IH]; cbn; [constructor|apply insert_sorted; auto]. Qed.
Lemma dedup_in x : forall l, In x (dedup l) <-> In x l.
Proof.
  induction l as [|y l IH]; [tauto|]. cbn [dedup]. destruct (dedup l) as [|z r] eqn:E.
  - cbn. rewrite <- IH. cbn. tauto.
  - destruct (Nat.eqb_spec y z) as [->|Hn]; cbn [In]; rewrite <- IH; cbn [In]; tauto.
Qed.
Lemma dedup_above : forall l n, sorted l -> (forall x, In x l -> n <= x) -> above n (dedup l).
Proof.
  induction l as [|y l IH]; intros n Hs Hn; cbn; auto. inversion Hs as [|? ? Hy Hl]; subst. specialize (IH y Hl Hy).
  destruct (dedup l) as [|z r] eqn:E.
  - cbn. split; auto. apply Hn. left; auto.
  - cbn in IH. destruct (Nat.eqb_spec y z) as [->|Hne]; cbn.
    + split; [apply Hn; left; auto|tauto].
    + split; [apply Hn; left; auto|]. split; [lia|tauto].
Qed.
Lemma asked_above fs : above 0 (asked fs).
Proof. apply dedup_above; [apply sort_sorted|intros; lia]. Qed.
Lemma asked_in fs x : In x (asked fs) <-> exists f, In f fs /\ (x = from_ (fst f) \/ x = to_ (fst f) \/ x = fst (snd f) \/ x = snd (snd f)).
Proof.
  unfold asked. rewrite dedup_in, sort_in, in_flat_map. split; intros (f & Hf & H); exists f; split; auto; cbn in *; intuition.
Qed.

Lemma above_le n l x : above n l -> In x l -> n <= x.
Proof.
  revert n. induction l as [|y l IH]; intros n H Hx; [destruct Hx|]. destruct H as (H1 & H2). destruct Hx as [->|Hx]; auto. specialize (IH _ H2 Hx). lia.
Qed.
Lemma scan_get : forall cs idx u offs n, above idx offs -> In n offs ->
  get (scan idx u offs cs) n = if n - idx <? length cs then Some (u + size (firstn (n - idx) cs)) else None.
Proof.
  induction cs as [|c cs IH]; intros idx u offs n Ha Hn.
  - cbn. auto.
  - destruct offs as [|o offs]; [destruct Hn|]. cbn [scan]. destruct Ha as (Ho & Ha). destruct (Nat.eqb_spec idx o) as [<-|Hne].
    + cbn [get]. destruct (Nat.eqb_spec idx n) as [<-|Hi].
      * rewrite Nat.sub_diag. cbn. f_equal. lia.
      * destruct Hn as [?|Hn]; [congruence|]. rewrite IH by auto. pose proof (above_le _ _ _ Ha Hn).
        replace (n - idx) with (S (n - S idx)) by lia. cbn [length firstn size fold_right].
        change (S (n - S idx) <? S (length cs)) with (n - S idx <? length cs). destruct (n - S idx <? length cs); auto. f_equal. unfold size. lia.
    + assert (Hge : S idx <= n).
      { destruct Hn as [<-|Hn]; [lia|]. pose proof (above_le _ _ _ Ha Hn). lia. }
      rewrite IH; auto; [|split; auto; lia].
      replace (n - idx) with (S (n - S idx)) by lia. cbn [length firstn size fold_right].
      change (S (n - S idx) <? S (length cs)) with (n - S idx <? length cs). destruct (n - S idx <? length cs); auto. f_equal. unfold size. lia.
Qed.
Lemma offset_ok fs s n : In n (asked fs) -> forall b, get (scan 0 0 (asked fs) (s ++ [0%N])) n = Some b <-> at_byte s n b.
Proof.
  intros Hn b. rewrite (scan_get _ 0 0 _ n (asked_above fs) Hn). rewrite Nat.sub_0_r, app_length, at_ok. cbn [length plus].
  destruct (Nat.ltb_spec n (length s + 1)).
  - rewrite firstn_app. replace (n - length s) with 0 by lia. rewrite firstn_O, app_nil_r. split.
    + intros E. injection E as <-. split; auto. lia.
    + intros (_ & ->). auto.
  - split; [discriminate|]. intros (H' & _). lia.
Qed.
Lemma at_fun s n b b' : at_byte s n b -> at_byte s n b' -> b = b'.
Proof. rewrite !at_ok. intros (_ & ->) (_ & ->). auto. Qed.

Lemma placed_ok f s o : placed f s o (filter_map (to_entry f (scan 0 0 (asked (map mark o)) (s ++ [0%N]))) (map mark o)).
Proof.
  set (m := scan 0 0 (asked (map mark o)) (s ++ [0%N])).
  assert (G : forall k a e, In (k, a, e) o -> forall n, n = a \/ n = a + length k \/ n = e -> (exists b, get m n = Some b /\ at_byte s n b) \/ get m n = None /\ length s < n).
  { intros k a e Hi n Hn. assert (Hin : In n (asked (map mark o))).
    { apply asked_in. exists (mark (k, a, e)). split; [apply in_map; auto|]. cbn. intuition. }
    destruct (get m n) as [b|] eqn:E.
    - left. exists b. split; auto. apply (offset_ok (map mark o)); auto.
    - right. split; auto. destruct (le_lt_dec n (length s)) as [Hle|]; auto. exfalso.
      assert (A : at_byte s n (size (firstn n s))) by (apply at_ok; auto). apply (offset_ok (map mark o)) in A; auto. unfold m in E. congruence. }
  clearbody m. induction o as [|((k, a), e) o IH]; cbn; [constructor|].
  assert (IH' := IH (fun k a e H => G k a e (or_intror H))). specialize (G k a e (or_introl eq_refl)).
  unfold to_entry, map_range. cbn [fst snd mark from_ to_ value].
  destruct (G a (or_introl eq_refl)) as [(b1 & E1 & A1)|(E1 & A1)]; rewrite E1.
  - destruct (G (a + length k) (or_intror (or_introl eq_refl))) as [(b2 & E2 & A2)|(E2 & A2)]; rewrite E2.
    + destruct (G e (or_intror (or_intror eq_refl))) as [(b3 & E3 & A3)|(E3 & A3)]; rewrite E3.
      * constructor; auto.
      * apply placed_out; auto.
    + apply placed_out; auto.
  - apply placed_out; auto. left. lia.
Qed.
Lemma placed_fun f s : forall o l, placed f s o l -> forall l', placed f s o l' -> l = l'.
Proof.
  induction 1 as [|k a e o l a' b' e' H1 H2 H3 H IH|k a e o l Hout H IH]; intros l' H'; inversion H'; subst; auto.
  - f_equal; auto. repeat f_equal; eapply at_fun; eauto.
  - exfalso. apply at_ok in H1, H2, H3. lia.
  - exfalso. match goal with x : at_byte _ (_ + _) _, y : at_byte _ e _ |- _ => apply at_ok in x; apply at_ok in y end. lia.
Qed.

(** * Bibliographies as they should be *)

Definition scalar (n : node) : Prop := match n with NScalar _ _ => True | _ => False end.
Lemma no_maps_flat : forall v, no_maps v -> Forall scalar (flat v).
Proof.
  induction v as [s a|m e IH|m IH|] using node_ind2; intros H; cbn; auto.
  - repeat constructor.
  - inversion H.
  - inversion H as [|l Hl|]; subst. apply Forall_forall. intros x Hx. apply in_flat_map in Hx. destruct Hx as (y & Hy & Hx).
    rewrite Forall_forall in Hl. specialize (IH y Hy (Hl y Hy)). rewrite Forall_forall in IH. auto.
Qed.
Lemma skip_scalars xs rest o : Forall scalar xs -> (forall m e r, rest <> NMap m e :: r) -> named_maps rest o -> named_maps (xs ++ rest) o.
Proof.
  induction 1 as [|x xs Hx H IH]; intros Hr Ho; auto. cbn. apply named_skip; auto. intros s a m e r' E. injection E as -> E.
  destruct xs as [|y xs]; cbn in E; [eapply Hr; eauto|]. injection E as -> _. inversion H; subst. auto.
Qed.
Lemma biblio_head l o : biblio l o -> forall m e r, flat_map (fun p => flat (fst p) ++ flat (snd p)) l <> NMap m e :: r.
Proof. destruct 1; cbn; discriminate. Qed.
Lemma biblio_named l o e : biblio l o -> named_maps (parts [NMap l e]) o.
Proof.
  intros H. unfold parts. cbn. rewrite !app_nil_r. induction H as [|s a m e' r o H IH|s a v r o Hv H IH].
  - constructor.
  - cbn. constructor. auto.
  - cbn [flat_map fst snd]. apply skip_scalars; auto.
    + cbn. constructor; [cbn; auto|]. apply no_maps_flat. auto.
    + eapply biblio_head; eauto.
Qed.

(** * Files *)

Lemma text_eqb_ok : forall a b, text_eqb a b = true <-> a = b.
Proof.
  induction a as [|x a IH]; intros [|y b]; cbn; try (split; congruence). rewrite andb_true_iff, N.eqb_eq, IH. split; [intros (-> & ->); auto|intros E; injection E; auto].
Qed.
Lemma text_eqb_no a b : text_eqb a b = false <-> a <> b.
Proof. rewrite <- text_eqb_ok. destruct (text_eqb a b); split; congruence. Qed.

Definition perform (m : list (text * entry)) (a : act) : list (text * entry) :=
  match a with Def k e => put k e m | Raw k r => set_raw k r m end.
Lemma analyze_acts m s : analyze m s = fold_left perform (acts s) m.
Proof.
  unfold analyze, acts. destruct (entries s) as [es|]; auto. rewrite fold_left_app.
  assert (E : forall es m, fold_left (fun m x => put (fst x) (snd x) m) es m = fold_left perform (map (fun x => Def (fst x) (snd x)) es) m) by (induction es0; intros; cbn; auto).
  rewrite <- E. destruct (bib s) as [bs|]; auto.
  assert (E2 : forall bs m, fold_left (fun m x => set_raw (fst x) (snd x) m) bs m = fold_left perform (map (fun x => Raw (fst x) (snd x)) bs) m) by (induction bs0; intros; cbn; auto).
  apply E2.
Qed.
Lemma info_acts ss : bib_info ss = fold_left perform (flat_map acts ss) [].
Proof.
  unfold bib_info. generalize (@nil (text * entry)). induction ss as [|s ss IH]; intros m; auto. cbn. rewrite fold_left_app, <- analyze_acts. auto.
Qed.

Lemma put_in k (e : entry) : forall m, NoDup (map fst m) -> forall k' e', In (k', e') (put k e m) <-> (k' = k /\ e' = e) \/ (k' <> k /\ In (k', e') m).
Proof.
  induction m as [|(k0, e0) m IH]; intros ND k' e'; cbn.
  - split; [intros [E|[]]; injection E; auto|]. intros [(-> & ->)|(_ & [])]. auto.
  - inversion ND as [|? ? Hn Hd]; subst. destruct (text_eqb k k0) eqn:E.
    + apply text_eqb_ok in E. subst k0. cbn. split.
      * intros [E|H]; [injection E as -> ->; auto|]. right. split; auto. intros ->. apply Hn. apply (in_map fst) in H. auto.
      * intros [(-> & ->)|(Hk & [E|H])]; auto. injection E as -> _. congruence.
    + apply text_eqb_no in E. cbn. rewrite (IH Hd). split.
      * intros [E1|[H|H]]; auto. injection E1 as -> ->. auto.
        right. destruct H. auto.
      * intros [H|(Hk & [H|H])]; auto.
Qed.
Definition with_raw (e : entry) (r : nat) : entry := {| file := file e; name_range := name_range e; range := range e; raw := Some r |}.
Lemma raw_in k r : forall m, NoDup (map fst m) -> forall k' e', In (k', e') (set_raw k r m) <-> (k' = k /\ exists e, In (k, e) m /\ e' = with_raw e r) \/ (k' <> k /\ In (k', e') m).
Proof.
  induction m as [|(k0, e0) m IH]; intros ND k' e'; cbn.
  - split; [intros []|]. intros [(_ & e & [] & _)|(_ & [])].
  - inversion ND as [|? ? Hn Hd]; subst. destruct (text_eqb k k0) eqn:E.
    + apply text_eqb_ok in E. subst k0. cbn. split.
      * intros [E|H]; [injection E as <- <-; left; split; auto; exists e0; auto|]. right. split; auto. intros ->. apply Hn. apply (in_map fst) in H. auto.
      * intros [(-> & e & [E|H] & ->)|(Hk & [E|H])]; auto.
        -- injection E as ->. auto.
        -- exfalso. apply Hn. apply (in_map fst) in H. auto.
        -- injection E as -> _. congruence.
    + apply text_eqb_no in E. cbn. rewrite (IH Hd). split.
      * intros [E1|[(-> & e & H & ->)|(Hk & H)]]; auto.
        -- injection E1 as -> ->. auto.
        -- left. split; auto. exists e. auto.
      * intros [(-> & e & [E1|H] & ->)|(Hk & [E1|H])]; auto.
        -- injection E1 as -> _. congruence.
        -- right. left. split; auto. exists e. auto.
Qed.
Lemma put_keys k (e : entry) : forall m : list (text * entry), map fst (put k e m) = if existsb (text_eqb k) (map fst m) then map fst m else map fst m ++ [k].
Proof.
  induction m as [|(k0, e0) m IH]; cbn; auto. destruct (text_eqb k k0); cbn; auto. rewrite IH. destruct (existsb (text_eqb k) (map fst m)); auto.
Qed.
Lemma raw_keys k r : forall m, map fst (set_raw k r m) = map fst m.
Proof. induction m as [|(k0, e0) m IH]; cbn; auto. destruct (text_eqb k k0); cbn; auto. f_equal. auto. Qed.
Lemma existsb_key k l : existsb (text_eqb k) l = true <-> In k l.
Proof.
  rewrite existsb_exists. split.
  - intros (x & Hx & E). apply text_eqb_ok in E. subst. auto.
  - intros H. exists k. split; auto. apply text_eqb_ok. auto.
Qed.

Lemma stands_other k e l a : ~ about k a -> (stands k e (l ++ [a]) <-> stands k e l).
Proof.
  intros Ha. split.
  - intros (l1 & e0 & l2 & E & Hd & H1 & H2 & H3 & H4). destruct l2 as [|b l2] using rev_ind.
    + apply app_inj_tail in E. destruct E as (_ & ->). exfalso. apply Ha. cbn. auto.
    + clear IHl2. rewrite app_comm_cons, app_assoc in E. apply app_inj_tail in E. destruct E as (-> & <-).
      exists l1, e0, l2. split; auto. split; [intros x Hx; apply Hd, in_or_app; auto|]. split; auto. split; auto. split; auto.
      destruct H4 as [(Hr & Hn)|(m1 & r & m2 & E & Hr & Hn)].
      * left. split; auto. intros x Hx. apply Hn, in_or_app. auto.
      * right. destruct m2 as [|b m2] using rev_ind.
        -- apply app_inj_tail in E. destruct E as (_ & ->). exfalso. apply Ha. cbn. auto.
        -- clear IHm2. rewrite app_comm_cons, app_assoc in E. apply app_inj_tail in E. destruct E as (-> & _). exists m1, r, m2. split; auto. split; auto.
           intros x Hx. apply Hn, in_or_app. auto.
  - intros (l1 & e0 & l2 & -> & Hd & H1 & H2 & H3 & H4). exists l1, e0, (l2 ++ [a]). rewrite <- app_assoc. split; auto. split.
    + intros x Hx. apply in_app_iff in Hx. destruct Hx as [Hx|[<-|[]]]; auto. intros H. apply Ha. destruct a; cbn in *; auto. contradiction.
    + split; auto. split; auto. split; auto. destruct H4 as [(Hr & Hn)|(m1 & r & m2 & -> & Hr & Hn)].
      * left. split; auto. intros x Hx. apply in_app_iff in Hx. destruct Hx as [Hx|[<-|[]]]; auto.
      * right. exists m1, r, (m2 ++ [a]). rewrite <- app_assoc. split; auto. split; auto. intros x Hx. apply in_app_iff in Hx. destruct Hx as [Hx|[<-|[]]]; auto.
Qed.
Lemma stands_def k e e0 l : stands k e (l ++ [Def k e0]) <-> e = e0.
Proof.
  split.
  - intros (l1 & e1 & l2 & E & Hd & H1 & H2 & H3 & H4). destruct l2 as [|b l2] using rev_ind.
    + apply app_inj_tail in E. destruct E as (_ & E). injection E as <-. destruct H4 as [(Hr & _)|(m1 & r & m2 & E & _)]; [|destruct m1; discriminate].
      destruct e, e0; cbn in *. congruence.
    + clear IHl2. rewrite app_comm_cons, app_assoc in E. apply app_inj_tail in E. destruct E as (_ & <-). exfalso.
      apply (Hd (Def k e0)); [apply in_or_app; right; left; auto|cbn; auto].
  - intros ->. exists l, e0, []. split; auto. split; [intros a []|]. do 3 (split; [reflexivity|]). left. split; [reflexivity|intros a []].
Qed.
Lemma stands_raw k e r l : stands k e (l ++ [Raw k r]) <-> exists e1, stands k e1 l /\ e = with_raw e1 r.
Proof.
  split.
  - intros (l1 & e0 & l2 & E & Hd & H1 & H2 & H3 & H4). destruct l2 as [|b l2] using rev_ind.
    + apply app_inj_tail in E. destruct E as (_ & E). discriminate.
    + clear IHl2. rewrite app_comm_cons, app_assoc in E. apply app_inj_tail in E. destruct E as (-> & <-).
      assert (Hr : raw e = Some r).
      { destruct H4 as [(_ & Hn)|(m1 & r' & m2 & E & Hr & Hn)].
        - exfalso. apply (Hn (Raw k r)); [apply in_or_app; right; left; auto|cbn; auto].
        - destruct m2 as [|b m2] using rev_ind.
          + apply app_inj_tail in E. destruct E as (_ & E). injection E as ->. auto.
          + clear IHm2. rewrite app_comm_cons, app_assoc in E. apply app_inj_tail in E. destruct E as (_ & <-). exfalso.
            apply (Hn (Raw k r)); [apply in_or_app; right; left; auto|cbn; auto]. }
      assert (X : forall l2, (forall a, In a l2 -> ~ defines k a) -> exists e1, stands k e1 (l1 ++ Def k e0 :: l2) /\ file e1 = file e0 /\ name_range e1 = name_range e0 /\ range e1 = range e0).
      { clear. intros l2. induction l2 as [|b l2 IH] using rev_ind; intros Hd.
        - exists e0. split; [apply stands_def; auto|auto].
        - destruct IH as (e1 & Hs & H1 & H2 & H3); [intros a Ha; apply Hd, in_or_app; auto|].
          assert (Hb : ~ defines k b) by (apply Hd, in_or_app; right; left; auto).
          destruct b as [k' e'|k' r'].
          + exists e1. split; auto. rewrite app_comm_cons, app_assoc. apply stands_other; auto.
          + destruct (text_eqb k' k) eqn:E.
            * apply text_eqb_ok in E. subst k'. exists (with_raw e1 r'). split; [|auto].
              destruct Hs as (p1 & ee & p2 & E & Hd' & F1 & F2 & F3 & F4). rewrite app_comm_cons, app_assoc, E.
              exists p1, ee, (p2 ++ [Raw k r']). rewrite <- app_assoc. split; auto. split.
              { intros a Ha. apply in_app_iff in Ha. destruct Ha as [Ha|[<-|[]]]; auto. }
              cbn. split; auto. split; auto. split; auto. right. exists p2, r', []. split; auto.
            * apply text_eqb_no in E. exists e1. split; auto. rewrite app_comm_cons, app_assoc. apply stands_other; auto. }
      destruct (X l2) as (e1 & Hs & G1 & G2 & G3); [intros a Ha; apply Hd, in_or_app; auto|].
      exists e1. split; auto. unfold with_raw. destruct e; cbn in *. congruence.
  - intros (e1 & (l1 & e0 & l2 & -> & Hd & H1 & H2 & H3 & H4) & ->). exists l1, e0, (l2 ++ [Raw k r]). rewrite <- app_assoc. split; auto. split.
    + intros a Ha. apply in_app_iff in Ha. destruct Ha as [Ha|[<-|[]]]; auto.
    + cbn. split; auto. split; auto. split; auto. right. exists l2, r, []. split; auto.
Qed.

Lemma perform_ok : forall l, let m := fold_left perform l [] in
  NoDup (map fst m) /\ first_keys l (map fst m) /\ forall k e, In (k, e) m <-> stands k e l.
Proof.
  induction l as [|a l IH] using rev_ind; cbn.
  - split; [constructor|]. split; [constructor|]. intros k e. split; [intros []|]. intros (l1 & e0 & l2 & E & _). destruct l1; discriminate.
  - rewrite fold_left_app. cbn [fold_left]. set (m := fold_left perform l []) in *. destruct IH as (ND & FK & IH). destruct a as [k0 e0|k0 r0]; cbn [perform].
    + rewrite put_keys. split; [|split].
      * destruct (existsb (text_eqb k0) (map fst m)) eqn:E; auto.
        assert (Hn : ~ In k0 (map fst m)) by (rewrite <- existsb_key; congruence).
        clear -ND Hn. induction (map fst m) as [|x xs IHx]; cbn; [constructor; auto; constructor|]. inversion ND; subst. constructor.
        -- rewrite in_app_iff. intros [H|[H|[]]]; [contradiction|]. subst. apply Hn. left; auto.
        -- apply IHx; auto. intros H. apply Hn. right; auto.
      * destruct (existsb (text_eqb k0) (map fst m)) eqn:E.
        -- apply first_old; auto. apply existsb_key. auto.
        -- apply first_new; auto. rewrite <- existsb_key. congruence.
      * intros k e. rewrite (put_in k0 e0 m ND). destruct (text_eqb k k0) eqn:E.
        -- apply text_eqb_ok in E. subst k0. rewrite stands_def. intuition.
        -- apply text_eqb_no in E. rewrite stands_other by (cbn; auto). rewrite IH. intuition.
    + rewrite raw_keys. split; auto. split; [apply first_raw; auto|].
      intros k e. rewrite (raw_in k0 r0 m ND). destruct (text_eqb k k0) eqn:E.
      * apply text_eqb_ok in E. subst k0. rewrite stands_raw. split.
        -- intros [(_ & e1 & H & ->)|(H & _)]; [|congruence]. exists e1. split; auto. apply IH. auto.
        -- intros (e1 & H & ->). left. split; auto. exists e1. split; auto. apply IH. auto.
      * apply text_eqb_no in E. rewrite stands_other by (cbn; auto). rewrite IH. intuition.
Qed.
