(** Proofs about the scan of a package (C192). *)
From Coq Require Import List Arith Bool Lia.
From Verif Require Import ScanModel ScanSpec.
Import ListNotations.

Lemma resolve_stands : forall e d, resolve e = Some d <-> stands e d.
Proof.
  fix IH 1. intros [d'|[r|]| |] d; cbn [resolve].
  - split; [intros E; injection E as ->; constructor|intros H; now inversion H].
  - rewrite IH. split; [intros H; now constructor|intros H; now inversion H].
  - split; [discriminate|intros H; inversion H].
  - split; [discriminate|intros H; inversion H].
  - split; [discriminate|intros H; inversion H].
Qed.
Lemma stands_fun : forall e a b, stands e a -> stands e b -> a = b.
Proof. intros e a b A B. apply resolve_stands in A. apply resolve_stands in B. congruence. Qed.
Lemma known_alias : forall g f p s, known g (alias f p s) = known g s || (f =? g).
Proof. intros g f p s. unfold known, alias. cbn [aliases]. rewrite existsb_app. cbn. now rewrite orb_false_r. Qed.
(** The sum over a list of trees. *)
Definition total (f : nat) (l : list info) : nat := list_sum (map (opens f) l).
Lemma total_app : forall f a b, total f (a ++ b) = total f a + total f b.
Proof. intros f a b. unfold total. now rewrite map_app, list_sum_app. Qed.
Lemma total_cons : forall f i b, total f (i :: b) = opens f i + total f b.
Proof. reflexivity. Qed.
Section World.
Variables (pkg : nat -> bool) (exports : nat -> option (list (nat * expr))) (stem : nat -> nat) (root dash : nat).
Let DEF := def pkg exports stem root dash.
(** The loop over what a file exports. *)
Definition items (rec : nat -> list nat -> nat -> decl -> state -> option (info * state)) (path : list nat) (f : nat) :=
  fix items (l : list (nat * expr)) (s : state) : option (list info * state) :=
    match l with
    | [] => Some ([], s)
    | (n, e) :: r =>
        match match resolve e with Some d' => rec n (path ++ [n]) f d' s | None => Some (mkInfo n None false [], s) end with
        | None => None
        | Some (i, s') => match items r s' with None => None | Some (is, s'') => Some (i :: is, s'') end
        end
    end.
(** The children of a declaration. *)
Definition kids (k : nat) (path : list nat) (d : decl) (s : state) : option (list info * state) :=
  match d with
  | DModule f => if pkg f then (if known f s then Some ([], alias f path s) else match exports f with None => Some ([], alias f path s) | Some es => items (DEF k) path f es (alias f path s) end) else Some ([], s)
  | DOther _ => Some ([], s)
  end.
Lemma def_eq : forall k key path site d s, DEF (S k) key path site d s =
  match kids k path d s with
  | None => None
  | Some (children, s2) =>
      let head := mkInfo key (Some d) (is_external site d) children in
      match file_of d with
      | Some f => if pkg f && negb (known f s2) then
            match exports f with
            | None => Some (head, s2)
            | Some _ => match DEF k (stem f) (path ++ [dash; key]) root (DModule f) s2 with
                        | None => None
                        | Some (m, s3) => Some (head, {| aliases := aliases s3; extras := extras s3 ++ [m] |})
                        end
            end
          else Some (head, s2)
      | None => Some (head, s2)
      end
  end.
Proof. reflexivity. Qed.
(** Whether a file that exports something has been shown. *)
Definition loads (g : nat) : bool := match exports g with Some (_ :: _) => true | _ => false end.
Definition shown (g : nat) (s : state) : nat := if known g s && loads g then 1 else 0.
(** What one step keeps. *)
Record keeps (s : state) (T : list info) (s' : state) : Prop := {
  k_known : forall g, known g s = true -> known g s' = true;
  k_count : forall g, total g T + total g (extras s') + shown g s = total g (extras s) + shown g s';
  k_closed : forall g, known g s' = true -> known g s = true \/ (pkg g = true /\ forall h, uses pkg exports g h -> known h s' = true);
  k_sound : Forall (sound pkg exports) T;
  k_extras : Forall (sound pkg exports) (extras s) -> Forall (sound pkg exports) (extras s');
  k_reach : forall g, known g s' = true -> exports g <> None -> known g s = true \/ reached pkg exports root g }.
Lemma keeps_refl : forall s, keeps s [] s.
Proof. intros s. constructor; auto. Qed.
Lemma keeps_trans : forall s T s' T' s'', keeps s T s' -> keeps s' T' s'' -> keeps s (T ++ T') s''.
Proof.
  intros s T s' T' s'' A B. constructor.
  - intros g G. now apply (k_known _ _ _ B), (k_known _ _ _ A).
  - intros g. pose proof (k_count _ _ _ A g). pose proof (k_count _ _ _ B g). rewrite total_app. lia.
  - intros g G. destruct (k_closed _ _ _ B g G) as [H|H]; [|now right]. destruct (k_closed _ _ _ A g H) as [I|(P & I)]; [now left|]. right. split; [exact P|]. intros h U. now apply (k_known _ _ _ B), I.
  - apply Forall_app. split; [apply A|apply B].
  - intros E. now apply (k_extras _ _ _ B), (k_extras _ _ _ A).
  - intros g G L. destruct (k_reach _ _ _ B g G L) as [H|H]; [|now right]. now apply (k_reach _ _ _ A g H L).
Qed.
(** What a declaration is of can be reached. *)
Definition ok (d : decl) : Prop := forall f, file_of d = Some f -> pkg f = true -> exports f <> None -> reached pkg exports root f.
Definition done (d : decl) (s : state) : Prop := forall f, file_of d = Some f -> pkg f = true -> exports f <> None -> known f s = true.
Definition head_of (key site : nat) (d : decl) (i : info) : Prop := exists cs, i = mkInfo key (Some d) (is_external site d) cs.
Definition good (k : nat) : Prop := forall key path site d s i s', ok d -> DEF k key path site d s = Some (i, s') -> keeps s [i] s' /\ done d s' /\ head_of key site d i.
Lemma external_spec : forall f d, is_external f d = true <-> exists g, (d = DModule g \/ d = DOther (Some g)) /\ g <> f.
Proof.
  intros f [g|[g|]]; unfold is_external; cbn [file_of]; [| |split; [discriminate|intros (g & [E|E] & _); discriminate]]; rewrite negb_true_iff, Nat.eqb_neq.
  - split; [intros N; exists g; split; [now left|exact N]|intros (h & [E|E] & N); [injection E as ->; exact N|discriminate]].
  - split; [intros N; exists g; split; [now right|exact N]|intros (h & [E|E] & N); [discriminate|injection E as ->; exact N]].
Qed.
Lemma items_keeps : forall k path f, good k -> (forall h, uses pkg exports f h -> reached pkg exports root h) -> forall es0, exports f = Some es0 ->
  forall es s is s', (forall x, In x es -> In x es0) -> items (DEF k) path f es s = Some (is, s') ->
  keeps s is s' /\ Forall2 (child f) es is /\ (forall n e d, In (n, e) es -> stands e d -> done d s').
Proof.
  intros k path f G R es0 X. induction es as [|(n, e) r IH]; intros s is s' S E; cbn [items] in E.
  - injection E as <- <-. split; [apply keeps_refl|]. split; [constructor|intros n e d []].
  - destruct (resolve e) as [d|] eqn:Q.
    + destruct (DEF k n (path ++ [n]) f d s) as [(i, s1)|] eqn:D; [|discriminate]. destruct (items (DEF k) path f r s1) as [(is', s2)|] eqn:I; [|discriminate]. injection E as <- <-.
      apply resolve_stands in Q.
      assert (O : ok d). { intros g F P L. apply R. exists es0, n, e, d. split; [exact X|]. split; [apply S; now left|]. split; [exact Q|]. split; [|now split]. destruct d as [h|[h|]]; cbn in F; [injection F as ->; now left|injection F as ->; now right|discriminate]. }
      destruct (G _ _ _ _ _ _ _ O D) as (K & DN & (cs & ->)). destruct (IH _ _ _ (fun x H => S x (or_intror H)) I) as (K2 & C2 & D2).
      split; [exact (keeps_trans _ _ _ _ _ K K2)|]. split.
      * constructor; [|exact C2]. cbn [child]. split; [reflexivity|]. split; [intros d'; split; [intros H; f_equal; exact (stands_fun _ _ _ Q H)|intros H; injection H as <-; exact Q]|].
        rewrite external_spec. split; [intros (g & H); exists d, g; now split|intros (d' & g & H & H'); injection H as <-; now exists g].
      * intros m x y [H|H] Y; [|now apply (D2 _ _ _ H)]. injection H as <- <-. assert (y = d) by exact (stands_fun _ _ _ Y Q). subst y. intros g F P L. apply (k_known _ _ _ K2). now apply DN.
    + destruct (items (DEF k) path f r s) as [(is', s2)|] eqn:I; [|discriminate]. injection E as <- <-.
      destruct (IH _ _ _ (fun x H => S x (or_intror H)) I) as (K2 & C2 & D2).
      assert (NS : forall d, ~ stands e d) by (intros d H; apply resolve_stands in H; congruence).
      split; [|split].
      * apply (keeps_trans s [mkInfo n None false []] s); [|exact K2]. constructor; auto; try (intros g; reflexivity); repeat constructor.
      * constructor; [|exact C2]. cbn [child]. split; [reflexivity|]. split; [intros d'; split; [intros H; now apply NS in H|discriminate]|]. split; [discriminate|intros (d' & g & H & _); discriminate].
      * intros m x y [H|H] Y; [injection H as <- <-; now apply NS in Y|now apply (D2 _ _ _ H)].
Qed.
Lemma good_all : forall k, good k.
Proof.
  induction k as [|k IH]; intros key path site d s i s' O E; [discriminate|]. rewrite def_eq in E.
  destruct (kids k path d s) as [(cs, s2)|] eqn:K; [|discriminate]. cbv zeta in E.
  assert (H : keeps s [mkInfo key (Some d) (is_external site d) cs] s2 /\ (forall f, d = DModule f -> pkg f = true -> known f s2 = true)).
  { unfold kids in K. destruct d as [f|o].
    - destruct (pkg f) eqn:P.
      + assert (NL : forall s1, keeps s [] s1 -> extras s1 = extras s1 -> keeps s [mkInfo key (Some (DModule f)) (is_external site (DModule f)) []] s1).
        { intros s1 B _. apply (keeps_trans s [] s1 [mkInfo key (Some (DModule f)) (is_external site (DModule f)) []] s1); [exact B|]. constructor; auto; try (intros g; reflexivity); repeat constructor. }
        destruct (known f s) eqn:Q.
        * injection K as <- <-. split; [apply NL; [|reflexivity]|].
          -- assert (SK : forall g, known g (alias f path s) = known g s). { intros g. rewrite known_alias. destruct (f =? g) eqn:W; [|apply orb_false_r]. apply Nat.eqb_eq in W. subst g. now rewrite Q. }
             constructor; auto; try (intros g; rewrite SK; now auto). intros g. unfold shown. now rewrite SK.
          -- intros g W _. injection W as <-. rewrite known_alias, Nat.eqb_refl. apply orb_true_r.
        * destruct (exports f) as [es|] eqn:X.
          -- assert (RF : reached pkg exports root f) by (apply O; [reflexivity|exact P|congruence]).
             destruct (items_keeps k path f IH (fun h U => R_uses _ _ _ f h RF U) es X es _ _ _ (fun x H => H) K) as (KK & C & D).
             assert (NF : known f (alias f path s) = true) by (rewrite known_alias, Nat.eqb_refl; apply orb_true_r).
             split.
             ++ constructor.
                ** intros g G. apply (k_known _ _ _ KK). now rewrite known_alias, G.
                ** intros g. pose proof (k_count _ _ _ KK g) as N. cbn [extras alias] in N. rewrite total_cons. cbn [opens]. change (list_sum (map (opens g) cs)) with (total g cs). unfold total at 2. cbn [map list_sum fold_right].
                   unfold shown in *. rewrite known_alias in N. destruct (f =? g) eqn:W.
                   --- apply Nat.eqb_eq in W. subst g. rewrite Q in *. cbn [orb andb] in *. unfold loads in *. rewrite X in *. destruct C; cbn in *; lia.
                   --- rewrite orb_false_r in N. destruct cs; cbn [list_sum] in *; lia.
                ** intros g G. destruct (k_closed _ _ _ KK g G) as [H|H]; [|now right]. rewrite known_alias in H. destruct (f =? g) eqn:W; [|left; now rewrite orb_false_r in H]. apply Nat.eqb_eq in W. subst g. right. split; [exact P|].
                   intros h (es' & n & e & d & X' & I & ST & F & PH & L). rewrite X in X'. injection X' as <-. apply (D n e d I ST h); [destruct F as [-> | ->]; reflexivity|exact PH|exact L].
                ** constructor; [|constructor]. destruct cs as [|c cs]; [constructor|]. apply (T_module pkg exports _ _ _ _ es P X C (k_sound _ _ _ KK)).
                ** intros EX. now apply (k_extras _ _ _ KK).
                ** intros g G L. destruct (k_reach _ _ _ KK g G L) as [H|H]; [|now right]. rewrite known_alias in H. destruct (f =? g) eqn:W; [|left; now rewrite orb_false_r in H]. apply Nat.eqb_eq in W. subst g. now right.
             ++ intros g W _. injection W as <-. now apply (k_known _ _ _ KK).
          -- injection K as <- <-. split; [apply NL; [|reflexivity]|].
             ++ constructor; auto.
                ** intros g G. now rewrite known_alias, G.
                ** intros g. cbn [extras alias]. unfold shown. rewrite known_alias. destruct (f =? g) eqn:W; [|rewrite orb_false_r; reflexivity]. apply Nat.eqb_eq in W. subst g. unfold loads. rewrite X, !andb_false_r. reflexivity.
                ** intros g G. rewrite known_alias in G. destruct (f =? g) eqn:W; [|left; now rewrite orb_false_r in G]. apply Nat.eqb_eq in W. subst g. right. split; [exact P|]. intros h (es' & n & e & d & X' & _). congruence.
                ** intros g G L. rewrite known_alias in G. destruct (f =? g) eqn:W; [|left; now rewrite orb_false_r in G]. apply Nat.eqb_eq in W. subst g. contradiction.
             ++ intros g W _. injection W as <-. rewrite known_alias, Nat.eqb_refl. apply orb_true_r.
      + injection K as <- <-. split; [|intros g W PG; injection W as <-; congruence]. constructor; auto; try (intros g; reflexivity); repeat constructor.
    - injection K as <- <-. split; [|intros g W; discriminate]. constructor; auto; try (intros g; reflexivity); repeat constructor. }
  destruct H as (H & HM).
  assert (HO : forall i' t, Some (mkInfo key (Some d) (is_external site d) cs, s2) = Some (i', t) -> done d s2 -> keeps s [i'] t /\ done d t /\ head_of key site d i').
  { intros i' t W DN. injection W as <- <-. split; [exact H|]. split; [exact DN|]. now exists cs. }
  destruct (file_of d) as [f|] eqn:F; [|apply HO; [exact E|intros f W; congruence]].
  destruct (pkg f && negb (known f s2)) eqn:Q.
  - apply andb_true_iff in Q. destruct Q as (P & Q). apply negb_true_iff in Q. destruct (exports f) as [es|] eqn:X; [|apply HO; [exact E|intros g W _ L; rewrite F in W; injection W as <-; contradiction]].
    destruct (DEF k (stem f) (path ++ [dash; key]) root (DModule f) s2) as [(m, s3)|] eqn:D; [|discriminate].
    assert (O2 : ok (DModule f)) by (intros g W; cbn in W; injection W as <-; now apply O).
    destruct (IH _ _ _ _ _ _ _ O2 D) as (K2 & DN & _).
    assert (W : i = mkInfo key (Some d) (is_external site d) cs /\ s' = {| aliases := aliases s3; extras := extras s3 ++ [m] |}) by (split; congruence). destruct W as (-> & ->).
    split; [|split; [|now exists cs]].
    + change [mkInfo key (Some d) (is_external site d) cs] with ([mkInfo key (Some d) (is_external site d) cs] ++ []). apply (keeps_trans _ _ s2); [exact H|]. constructor.
      * exact (k_known _ _ _ K2).
      * intros g. pose proof (k_count _ _ _ K2 g) as N. cbn [extras]. rewrite total_app. change (shown g {| aliases := aliases s3; extras := extras s3 ++ [m] |}) with (shown g s3). change (total g []) with 0. lia.
      * exact (k_closed _ _ _ K2).
      * constructor.
      * intros EX. cbn [extras]. apply Forall_app. split; [now apply (k_extras _ _ _ K2)|apply K2].
      * exact (k_reach _ _ _ K2).
    + intros g W PG L. rewrite F in W. injection W as <-. exact (DN f eq_refl PG L).
  - apply HO; [exact E|]. intros g W PG L. rewrite F in W. injection W as <-. rewrite PG in Q. cbn in Q. now apply negb_false_iff in Q.
Qed.
(** The files that are still to be shown. *)
Definition left_ (files : list nat) (s : state) : nat := length (filter (fun g => pkg g && negb (known g s)) files).
Lemma left_mono : forall files s s', (forall g, known g s = true -> known g s' = true) -> left_ files s' <= left_ files s.
Proof.
  intros files s s' M. unfold left_. induction files as [|g r IH]; [reflexivity|]. cbn [filter]. destruct (pkg g); cbn [andb]; [|exact IH].
  destruct (known g s) eqn:A; [rewrite (M g A); exact IH|]. destruct (known g s'); cbn [negb length]; lia.
Qed.
Lemma left_alias : forall files f p s, In f files -> pkg f = true -> known f s = false -> left_ files (alias f p s) < left_ files s.
Proof.
  intros files f p s I P K. assert (M : forall r, left_ r (alias f p s) <= left_ r s) by (intros r; apply left_mono; intros g G; now rewrite known_alias, G).
  induction files as [|g r IH]; [destruct I|]. specialize (M r). unfold left_ in *. cbn [filter]. destruct (Nat.eq_dec g f) as [->|N].
  - rewrite known_alias, Nat.eqb_refl, K, P. cbn [andb negb orb length]. lia.
  - destruct I as [E|I]; [contradiction|]. specialize (IH I). rewrite known_alias. replace (f =? g) with false by (symmetry; apply Nat.eqb_neq; congruence). rewrite orb_false_r. destruct (pkg g && negb (known g s)); cbn [length]; lia.
Qed.
(** The fuel that is enough. *)
Definition need (files : list nat) (d : decl) (s : state) : nat := match d with DModule _ => 2 * left_ files s + 1 | DOther _ => 2 * left_ files s + 2 end.
Lemma def_ends : forall files, (forall f g, uses pkg exports f g -> In g files) ->
  forall k key path site d s, ok d -> (forall f, file_of d = Some f -> pkg f = true -> exports f <> None -> In f files) -> need files d s <= k -> DEF k key path site d s <> None.
Proof.
  intros files CL. induction k as [|k IH]; intros key path site d s O I N; [destruct d; cbn in N; lia|]. rewrite def_eq.
  assert (KD : exists cs s2, kids k path d s = Some (cs, s2) /\ (forall f, d = DModule f -> pkg f = true -> known f s2 = true) /\ left_ files s2 <= left_ files s).
  { unfold kids. destruct d as [f|o]; [|exists [], s; split; [reflexivity|split; [discriminate|reflexivity]]].
    destruct (pkg f) eqn:P; [|exists [], s; split; [reflexivity|split; [intros g W; injection W as <-; congruence|reflexivity]]].
    assert (NF : known f (alias f path s) = true) by (rewrite known_alias, Nat.eqb_refl; apply orb_true_r).
    assert (LA : left_ files (alias f path s) <= left_ files s) by (apply left_mono; intros g G; now rewrite known_alias, G).
    destruct (known f s) eqn:Q; [exists [], (alias f path s); split; [reflexivity|split; [intros g W _; injection W as <-; exact NF|exact LA]]|].
    destruct (exports f) as [es|] eqn:X; [|exists [], (alias f path s); split; [reflexivity|split; [intros g W _; injection W as <-; exact NF|exact LA]]].
    assert (LT : left_ files (alias f path s) < left_ files s) by (apply left_alias; [apply I; [reflexivity|exact P|congruence]|exact P|exact Q]).
    assert (RF : reached pkg exports root f) by (apply O; [reflexivity|exact P|congruence]).
    assert (RU : forall h, uses pkg exports f h -> reached pkg exports root h) by (intros h U; exact (R_uses _ _ _ f h RF U)).
    cbn [need] in N.
    assert (G : forall l t, (forall x, In x l -> In x es) -> left_ files t < left_ files s -> exists is t', items (DEF k) path f l t = Some (is, t')).
    { induction l as [|(n, e) r IHl]; intros t SU LT'; cbn [items]; [now exists [], t|]. destruct (resolve e) as [d|] eqn:RS.
      - apply resolve_stands in RS.
        assert (U : forall g, file_of d = Some g -> pkg g = true -> exports g <> None -> uses pkg exports f g).
        { intros g F PG L. exists es, n, e, d. split; [exact X|]. split; [apply SU; now left|]. split; [exact RS|]. split; [|now split]. destruct d as [h|[h|]]; cbn in F; [injection F as ->; now left|injection F as ->; now right|discriminate]. }
        assert (OD : ok d) by (intros g F PG L; apply RU; now apply U).
        destruct (DEF k n (path ++ [n]) f d t) as [(i, t1)|] eqn:D.
        + destruct (good_all k _ _ _ _ _ _ _ OD D) as (KK & _). destruct (IHl t1 (fun x H => SU x (or_intror H))) as (is & t' & ->); [|now exists (i :: is), t'].
          pose proof (left_mono files t t1 (k_known _ _ _ KK)). lia.
        + exfalso. revert D. apply IH; [exact OD|intros g F PG L; apply (CL f); now apply U|]. destruct d; cbn [need]; lia.
      - destruct (IHl t (fun x H => SU x (or_intror H)) LT') as (is & t' & ->). now exists (mkInfo n None false [] :: is), t'. }
    destruct (G es (alias f path s) (fun x H => H) LT) as (is & t' & E). exists is, t'. split; [exact E|].
    destruct (items_keeps k path f (good_all k) RU es X es _ _ _ (fun x H => H) E) as (KK & _).
    split; [intros g W _; injection W as <-; now apply (k_known _ _ _ KK)|]. pose proof (left_mono files _ _ (k_known _ _ _ KK)). lia. }
  destruct KD as (cs & s2 & -> & KM & LL). cbv zeta. destruct (file_of d) as [f|] eqn:F; [|discriminate]. destruct (pkg f && negb (known f s2)) eqn:Q; [|discriminate].
  apply andb_true_iff in Q. destruct Q as (P & Q). apply negb_true_iff in Q. destruct (exports f) as [es|] eqn:X; [|discriminate].
  destruct (DEF k (stem f) (path ++ [dash; key]) root (DModule f) s2) as [(m, s3)|] eqn:D; [discriminate|]. exfalso. revert D. apply IH.
  - intros g W. cbn in W. injection W as <-. now apply O.
  - intros g W. cbn in W. injection W as <-. now apply I.
  - destruct d as [g|o]; [cbn in F; injection F as ->; rewrite (KM f eq_refl P) in Q; discriminate|]. cbn [need] in *. lia.
Qed.
Lemma items_more : forall (rec rec' : nat -> list nat -> nat -> decl -> state -> option (info * state)) path f,
  (forall n p g d s r, rec n p g d s = Some r -> rec' n p g d s = Some r) -> forall es s r, items rec path f es s = Some r -> items rec' path f es s = Some r.
Proof.
  intros rec rec' path f M. induction es as [|(n, e) es IH]; intros s r E; cbn [items] in *; [exact E|]. destruct (resolve e) as [d|].
  - destruct (rec n (path ++ [n]) f d s) as [(i, s1)|] eqn:D; [|discriminate]. rewrite (M _ _ _ _ _ _ D). destruct (items rec path f es s1) as [(is, s2)|] eqn:I; [|discriminate]. now rewrite (IH _ _ I).
  - destruct (items rec path f es s) as [(is, s2)|] eqn:I; [|discriminate]. now rewrite (IH _ _ I).
Qed.
Lemma def_more : forall k key path site d s r, DEF k key path site d s = Some r -> DEF (S k) key path site d s = Some r.
Proof.
  induction k as [|k IH]; intros key path site d s r E; [discriminate|]. rewrite def_eq in E. rewrite def_eq.
  destruct (kids k path d s) as [(cs, s2)|] eqn:K; [|discriminate].
  assert (K2 : kids (S k) path d s = Some (cs, s2)).
  { unfold kids in *. destruct d as [f|o]; [|exact K]. destruct (pkg f); [|exact K]. destruct (known f s); [exact K|]. destruct (exports f) as [es|]; [|exact K]. revert K. apply items_more. exact IH. }
  rewrite K2. cbv zeta in *. destruct (file_of d) as [f|]; [|exact E]. destruct (pkg f && negb (known f s2)); [|exact E]. destruct (exports f); [|exact E].
  destruct (DEF k (stem f) (path ++ [dash; key]) root (DModule f) s2) as [(m, s3)|] eqn:D; [|discriminate]. now rewrite (IH _ _ _ _ _ _ D).
Qed.
End World.
