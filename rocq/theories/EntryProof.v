(** Proofs about the choice of project root and main file. *)
From Coq Require Import List NArith Arith Bool Lia.
From Verif Require Import DigModel PageModel PathModel PathSpec PathProof EntryModel EntrySpec.
Import ListNotations.

Lemma path_eqb_spec a : forall b, path_eqb a b = true <-> a = b.
Proof.
  induction a as [|x a IH]; intros [|y b]; cbn; try (split; congruence).
  rewrite andb_true_iff, comp_eqb_spec, IH. split; [intros [-> ->]; reflexivity|intros H; injection H as -> ->; auto].
Qed.
Lemma path_eqb_refl a : path_eqb a a = true.
Proof. now apply path_eqb_spec. Qed.
Lemma comp_eqb_refl x : comp_eqb x x = true.
Proof. now apply comp_eqb_spec. Qed.
Lemma path_eqb_neq a b : a <> b -> path_eqb a b = false.
Proof. intros H. destruct (path_eqb a b) eqn:E; auto. apply path_eqb_spec in E. congruence. Qed.
Lemma strip_app d : forall s, strip (d ++ s) d = Some s.
Proof. induction d as [|x d IH]; intros s; [now destruct s|]. cbn. now rewrite comp_eqb_refl. Qed.
Lemma strip_some d : forall e s, strip e d = Some s -> e = d ++ s.
Proof.
  induction d as [|x d IH]; intros e s; [destruct e; cbn; congruence|]. destruct e as [|y e]; [discriminate|]. cbn.
  destruct (comp_eqb x y) eqn:E; [|discriminate]. intros H. apply comp_eqb_spec in E as ->. now rewrite (IH _ _ H).
Qed.
Lemma within_spec e d : within e d = true <-> inside e d.
Proof.
  unfold within, inside. split.
  - destruct (strip e d) as [s|] eqn:E; [|discriminate]. intros _. exists s. now apply strip_some.
  - intros (s & ->). now rewrite strip_app.
Qed.
Lemma parent_snoc d c : parent (d ++ [c]) = match c with RootC => None | _ => Some d end.
Proof. unfold parent. rewrite rev_app_distr. cbn. rewrite rev_involutive. now destruct c. Qed.
Lemma parent_some e d : parent e = Some d -> exists c, e = d ++ [c] /\ c <> RootC.
Proof.
  unfold parent. destruct (rev e) as [|c r] eqn:E; [discriminate|]. assert (X : e = rev r ++ [c]) by (rewrite <- (rev_involutive e), E; reflexivity).
  intros H. exists c. destruct c; try discriminate; injection H as <-; split; auto; discriminate.
Qed.
Lemma file_name_some e f : file_name e = Some f -> exists d n, e = d ++ [Nor n] /\ f = [Nor n] /\ parent e = Some d.
Proof.
  unfold file_name, parent. destruct (rev e) as [|[| | |n] r] eqn:E; try discriminate. intros H. injection H as <-.
  exists (rev r), n. split; [|auto]. rewrite <- (rev_involutive e), E. reflexivity.
Qed.
Lemma file_name_named e : named e -> exists d n, e = d ++ [Nor n] /\ file_name e = Some [Nor n] /\ parent e = Some d.
Proof. intros (d & n & ->). exists d, n. repeat split. - unfold file_name. rewrite rev_app_distr. reflexivity. - apply parent_snoc. Qed.

(** * The cache *)
Lemma cget_del e c k : cget k (cdel e c) = if path_eqb e k then None else cget k c.
Proof.
  induction c as [|[x v] c IH]; cbn; [now destruct (path_eqb e k)|]. fold (cdel e c). destruct (path_eqb x e) eqn:X; cbn; rewrite ?IH.
  - apply path_eqb_spec in X as ->. now destruct (path_eqb e k).
  - destruct (path_eqb x k) eqn:Y; [|reflexivity]. apply path_eqb_spec in Y as ->. destruct (path_eqb e k) eqn:Z; [|reflexivity]. apply path_eqb_spec in Z as ->. now rewrite path_eqb_refl in X.
Qed.
Lemma cget_set e v c k : cget k (cset e v c) = if path_eqb e k then Some v else cget k c.
Proof. unfold cset. cbn. rewrite cget_del. now destruct (path_eqb e k). Qed.

(** What [root] does to the cached value of its own entry, and its result. *)
Definition found (toml : path -> bool) (e : path) : option path := find toml (ancestors (length e) e).
Definition after (toml : path -> bool) (r : resolver) (v : option (option path)) (e : path) : option (option path) :=
  match r_root r with
  | Some _ => v
  | None => match find (within e) (r_roots r) with
            | Some _ => v
            | None => match v with
                      | Some None => v
                      | Some (Some d) => if toml d then v else Some (found toml e)
                      | None => Some (found toml e)
                      end
            end
  end.
Definition result (toml : path -> bool) (r : resolver) (v : option (option path)) (e : path) : option path :=
  match r_root r with
  | Some x => Some x
  | None => match find (within e) (r_roots r) with
            | Some x => Some x
            | None => let go := match found toml e with
                                | Some a => Some a
                                | None => match parent e with Some x => Some x | None => first_root r end
                                end in
                      match v with
                      | Some None => None
                      | Some (Some d) => if toml d then Some d else go
                      | None => go
                      end
            end
  end.
Lemma root_spec toml r c e : snd (root toml r c (Some e)) = result toml r (cget e c) e /\
  cget e (fst (root toml r c (Some e))) = after toml r (cget e c) e /\
  forall k, k <> e -> cget k (fst (root toml r c (Some e))) = cget k c.
Proof.
  unfold root, result, after, found. destruct (r_root r) as [x|]; [auto|]. destruct (find (within e) (r_roots r)); [auto|].
  assert (GO : forall c, let '(c', res) := search toml e c in
     match res with Some x => Some x | None => first_root r end = match find toml (ancestors (length e) e) with Some a => Some a | None => match parent e with Some x => Some x | None => first_root r end end /\
     cget e c' = Some (find toml (ancestors (length e) e)) /\ forall k, k <> e -> cget k c' = cget k c).
  { intros c0. unfold search. destruct (find toml (ancestors (length e) e)); rewrite cget_set, path_eqb_refl; (split; [reflexivity|]); (split; [reflexivity|]);
    intros k K; rewrite cget_set, path_eqb_neq; auto. }
  destruct (cget e c) as [[d|]|] eqn:E; [|auto|].
  - destruct (toml d); [auto|]. specialize (GO (cdel e c)). destruct (search toml e (cdel e c)) as [c' res]. cbn [fst snd]. destruct GO as (A & B & C).
    split; [exact A|]. split; [exact B|]. intros k K. rewrite (C k K), cget_del, path_eqb_neq; auto.
  - specialize (GO c). destruct (search toml e c) as [c' res]. cbn [fst snd]. exact GO.
Qed.
Definition answer toml r v e := resolve_with_root r (result toml r v e) (Some e).
Lemma resolve_spec toml r c e : snd (resolve toml r c (Some e)) = answer toml r (cget e c) e /\
  cget e (fst (resolve toml r c (Some e))) = after toml r (cget e c) e /\
  forall k, k <> e -> cget k (fst (resolve toml r c (Some e))) = cget k c.
Proof.
  unfold resolve, answer. destruct (root_spec toml r c e) as (A & B & C). destruct (root toml r c (Some e)) as [c' d]. cbn [fst snd] in *. now rewrite A.
Qed.
Lemma resolve_none toml r c : fst (resolve toml r c None) = c /\ snd (resolve toml r c None) = fallback r.
Proof. unfold resolve, root, resolve_with_root, fallback. destruct (r_root r); cbn; auto. destruct (first_root r); auto. Qed.
Lemma find_some_toml {A} (f : A -> bool) l x : find f l = Some x -> f x = true.
Proof. intros H. now apply find_some in H. Qed.
(** The entry state by the parent is the one that the search gives. *)
Lemma by_parent r (e d : path) n : e = d ++ [Nor n] -> resolve_with_root r (Some d) (Some e) = mkE (Some d) (Some (Some d, vpath [Nor n])) /\
  resolve_with_root r None (Some e) = mkE (Some d) (Some (Some d, vpath [Nor n])).
Proof.
  intros ->. unfold resolve_with_root. split.
  - now rewrite strip_app.
  - unfold new_rooted_by_parent. destruct (file_name_named (d ++ [Nor n])) as (d' & n' & E & F & P); [now exists d, n|]. apply app_inj_tail in E as [-> E]. injection E as ->. now rewrite F, P.
Qed.
(** No parent, hence no name. *)
Lemma no_parent e : parent e = None -> file_name e = None.
Proof. destruct (file_name e) as [f|] eqn:F; [|reflexivity]. apply file_name_some in F as (d & n & _ & _ & P). congruence. Qed.
Lemma no_parent_answer r e x : parent e = None -> strip e x = None -> resolve_with_root r (Some x) (Some e) = resolve_with_root r None (Some e).
Proof. intros P S. unfold resolve_with_root, new_rooted_by_parent. now rewrite S. Qed.
(** The answer does not change. *)
Lemma answer_after toml r v e : named e \/ parent e = None -> answer toml r (after toml r v e) e = answer toml r v e.
Proof.
  intros N. unfold answer, after, result. destruct (r_root r) as [x|]; [reflexivity|]. destruct (find (within e) (r_roots r)) as [x|] eqn:FR; [reflexivity|].
  assert (GO : match found toml e with Some a => if toml a then resolve_with_root r (Some a) (Some e) else
      resolve_with_root r (match found toml e with Some a => Some a | None => match parent e with Some x => Some x | None => first_root r end end) (Some e)
      | None => resolve_with_root r None (Some e) end =
      resolve_with_root r (match found toml e with Some a => Some a | None => match parent e with Some x => Some x | None => first_root r end end) (Some e)).
  { destruct (found toml e) as [a|] eqn:F; [now destruct (toml a)|]. destruct N as [N|N].
    - destruct (file_name_named e N) as (d & n & E & _ & P). rewrite P. cbv iota. destruct (by_parent r e d n E) as [A B]. exact (eq_trans B (eq_sym A)).
    - rewrite N. cbv iota. unfold first_root. destruct (r_roots r) as [|x xs] eqn:RS; [reflexivity|]. symmetry. apply no_parent_answer; auto.
      cbn in FR. unfold within in FR. destruct (strip e x); [discriminate|reflexivity]. }
  destruct v as [[d|]|]; [|reflexivity|].
  - destruct (toml d) eqn:T; [now rewrite T|]. rewrite <- GO. destruct (found toml e) as [a|] eqn:F; [|reflexivity].
    unfold found in F. rewrite (find_some_toml _ _ _ F). reflexivity.
  - rewrite <- GO. destruct (found toml e) as [a|] eqn:F; [|reflexivity].
    unfold found in F. rewrite (find_some_toml _ _ _ F). reflexivity.
Qed.
Definition ans toml r c e := answer toml r (cget e c) e.
Lemma resolve_keeps toml r c e k : named e \/ parent e = None -> ans toml r (fst (resolve toml r c k)) e = ans toml r c e.
Proof.
  intros N. unfold ans. destruct k as [k|]; [|now rewrite (proj1 (resolve_none toml r c))]. destruct (resolve_spec toml r c k) as (_ & B & C).
  destruct (path_eqb k e) eqn:E.
  - apply path_eqb_spec in E as ->. rewrite B. now apply answer_after.
  - rewrite C; [reflexivity|]. intros ->. now rewrite path_eqb_refl in E.
Qed.
Lemma resolves_keeps toml r es : forall c e, named e \/ parent e = None -> ans toml r (fst (resolves toml r c es)) e = ans toml r c e.
Proof.
  induction es as [|k es IH]; intros c e N; [reflexivity|]. cbn [resolves]. pose proof (resolve_keeps toml r c e k N) as K.
  destruct (resolve toml r c k) as [c1 s]. specialize (IH c1 e N). destruct (resolves toml r c1 es) as [c2 ss]. cbn [fst] in *. congruence.
Qed.
(** Any two resolutions of the same entry give the same, whatever lies between. *)
Theorem resolves_same toml r : forall es c e i j a b, named e \/ parent e = None ->
  nth_error es i = Some (Some e) -> nth_error es j = Some (Some e) ->
  nth_error (snd (resolves toml r c es)) i = Some a -> nth_error (snd (resolves toml r c es)) j = Some b -> a = b.
Proof.
  intros es c e i j a b N.
  assert (X : forall es c i a, nth_error es i = Some (Some e) -> nth_error (snd (resolves toml r c es)) i = Some a -> a = ans toml r c e).
  { clear - N. intros es. induction es as [|k es IH]; intros c i a E A; [destruct i; discriminate|].
    cbn [resolves] in A. pose proof (resolve_keeps toml r c e k N) as K. destruct (resolve toml r c k) as [c1 s] eqn:R. 
    specialize (IH c1). destruct (resolves toml r c1 es) as [c2 ss]. cbn [fst snd] in *. destruct i as [|i]; cbn in E, A.
    - injection E as ->. injection A as <-. unfold ans. pose proof (proj1 (resolve_spec toml r c e)) as S. rewrite R in S. exact S.
    - rewrite (IH i a E A). exact K. }
  intros I J A B. rewrite (X es c i a I A), (X es c j b J B). reflexivity.
Qed.

(** * Which root *)
Lemma ancestors_snoc d c : c <> RootC -> ancestors (length (d ++ [c])) (d ++ [c]) = (d ++ [c]) :: ancestors (length d) d.
Proof. intros H. rewrite app_length, Nat.add_comm. cbn [length Nat.add ancestors]. rewrite parent_snoc. destruct c; try congruence; reflexivity. Qed.
Lemma found_snoc toml d c : c <> RootC -> found toml (d ++ [c]) = if toml (d ++ [c]) then Some (d ++ [c]) else found toml d.
Proof. intros H. unfold found. rewrite ancestors_snoc by exact H. reflexivity. Qed.
Lemma app_snoc_split (d : path) c d' s' : d ++ [c] = d' ++ s' -> (s' = [] /\ d' = d ++ [c]) \/ exists s, s' = s ++ [c] /\ d = d' ++ s.
Proof.
  destruct s' as [|x s'] using rev_ind; intros E; [left; rewrite app_nil_r in E; auto|right].
  rewrite app_assoc in E. apply app_inj_tail in E as [-> ->]. exists s'. auto.
Qed.
Definition single_root (e : path) : Prop := forall d s, e = d ++ RootC :: s -> d = [].
Lemma path_ok_single e : path_ok e -> single_root e.
Proof.
  intros H d s ->. destruct d as [|x d]; [reflexivity|exfalso]. assert (X : Forall inner_ok (d ++ RootC :: s)).
  { destruct x; cbn in H; auto; now inversion H. }
  apply Forall_app in X as [_ X]. now inversion X.
Qed.
Lemma found_spec toml e : single_root e -> match found toml e with Some d => nearest toml e d | None => nowhere toml e end.
Proof.
  induction e as [|c e IH] using rev_ind; intros S.
  - unfold found. cbn. destruct (toml []) eqn:T.
    + split; [exists []; auto|]. split; [exact T|]. intros d' s' E _ _. destruct d'; [cbn; lia|discriminate].
    + intros d s E _. destruct d; [exact T|discriminate].
  - assert (A : is_abs (e ++ [c]) = match e with [] => match c with RootC => true | _ => false end | _ => is_abs e end) by (destruct e as [|[] e]; [destruct c|..]; reflexivity).
    destruct (comp_eqb c RootC) eqn:CR.
    + apply comp_eqb_spec in CR as ->. assert (e = []) as -> by (apply (S e []); reflexivity). cbn in A. unfold found. cbn. destruct (toml [RootC]) eqn:T.
      * split; [exists []; rewrite app_nil_r; split; [auto|left; discriminate]|]. split; [exact T|]. intros d' s' E _ _.
        apply (f_equal (@length comp)) in E. rewrite app_length in E. cbn in E |- *. lia.
      * intros d s E [N|N]; [|discriminate]. destruct d as [|x d]; [congruence|]. injection E as <- E. symmetry in E. apply app_eq_nil in E as [-> ->]. exact T.
    + assert (NR : c <> RootC) by (intros ->; discriminate). rewrite (found_snoc toml e c NR). destruct (toml (e ++ [c])) eqn:T.
      * split; [exists []; rewrite app_nil_r; split; [auto|left; destruct e; discriminate]|]. split; [exact T|]. intros d' s' E _ _.
        apply (f_equal (@length comp)) in E. rewrite !app_length in *. lia.
      * assert (S' : single_root e). { intros d s ->. apply (S d (s ++ [c])). now rewrite <- app_assoc. } specialize (IH S').
        assert (AB : forall d : path, (d <> [] \/ is_abs (e ++ [c]) = false) <-> (d <> [] \/ is_abs e = false)).
        { intros d. rewrite A. destruct e as [|x e]; [|reflexivity]. destruct c; try congruence; cbn; tauto. }
        destruct (found toml e) as [d|].
        -- destruct IH as ((s & E & Q) & TD & M). split; [exists (s ++ [c]); rewrite app_assoc, <- E; split; [auto|now apply AB]|]. split; [exact TD|].
           intros d' s' E' Q' T'. apply app_snoc_split in E' as [[-> ->]|(s0 & -> & E')]; [congruence|]. apply (M d' s0 E'); auto. now apply AB.
        -- intros d s E Q. apply app_snoc_split in E as [[-> ->]|(s0 & -> & E)]; [exact T|]. apply (IH d s0 E). now apply AB.
Qed.
(** The root that is chosen when nothing is cached for the entry. *)
Theorem root_fresh toml r c e : path_ok e -> cget e c = None ->
  let d := snd (root toml r c (Some e)) in
  (forall x, r_root r = Some x -> d = Some x) /\
  (r_root r = None ->
    (forall a x b, r_roots r = a ++ x :: b -> inside e x -> (forall y, In y a -> ~ inside e y) -> d = Some x) /\
    ((forall y, In y (r_roots r) -> ~ inside e y) ->
      (forall x, nearest toml e x -> d = Some x) /\
      (nowhere toml e -> forall x, parent e = Some x -> d = Some x))).
Proof.
  intros OK C d. unfold d. rewrite (proj1 (root_spec toml r c e)), C. unfold result. split; [intros x ->; reflexivity|]. intros ->. split.
  - intros a x b E I NA. replace (find (within e) (r_roots r)) with (Some x); [reflexivity|]. rewrite E. clear E. induction a as [|y a IH]; cbn.
    + now rewrite (proj2 (within_spec e x) I).
    + destruct (within e y) eqn:W; [exfalso; apply (NA y); [now left|now apply within_spec]|]. apply IH. intros z Z. apply NA. now right.
  - intros NO. replace (find (within e) (r_roots r)) with (@None path).
    2: { destruct (find (within e) (r_roots r)) as [y|] eqn:F; [|reflexivity]. exfalso. apply find_some in F as [I W]. apply (NO y I). now apply within_spec. }
    pose proof (found_spec toml e (path_ok_single e OK)) as F. split.
    + intros x ((s & E & Q) & T & M). destruct (found toml e) as [y|].
      * destruct F as ((s' & E' & Q') & T' & M'). pose proof (M y s' E' Q' T'). pose proof (M' x s E Q T). f_equal.
        assert (L : length y = length x) by lia. rewrite E in E'. clear -E' L. revert y L E'. induction x as [|a x IH]; intros [|b y] L E; try discriminate; [reflexivity|].
        injection E as -> E. f_equal. apply (IH y); [now injection L|exact E].
      * rewrite (F x s E Q) in T. discriminate.
    + intros NW x P. destruct (found toml e) as [y|].
      * destruct F as ((s' & E' & Q') & T' & M'). rewrite (NW y s' E' Q') in T'. discriminate.
      * now rewrite P.
Qed.

(** * Where the main file is *)
Lemma walk_vfold s : Forall (fun c => c <> RootC) s -> forall w out, walk w (rev (fold_left vstep s out)) = walk (walk w (rev out)) s.
Proof.
  induction s as [|c s IH]; intros F w out; [reflexivity|]. inversion F as [|? ? N F']; subst. cbn [fold_left]. rewrite IH by exact F'.
  change (walk (walk w (rev out)) (c :: s)) with (walk (walk1 (walk w (rev out)) c) s). f_equal.
  destruct c as [| | |n]; [congruence|reflexivity| |cbn [vstep rev]; now rewrite walk_app].
  destruct out as [|[| | |n] out]; cbn [vstep rev]; rewrite ?walk_app; reflexivity.
Qed.
Lemma walk_vpath s w : Forall (fun c => c <> RootC) s -> walk w (vpath s) = walk w s.
Proof. intros F. unfold vpath. now rewrite walk_vfold. Qed.
Lemma pop_fixed p : pop p = p -> p = [] \/ exists d, p = d ++ [RootC].
Proof.
  unfold pop. destruct (rev p) as [|c q] eqn:E.
  - intros _. left. rewrite <- (rev_involutive p), E. reflexivity.
  - assert (X : p = rev q ++ [c]) by (rewrite <- (rev_involutive p), E; reflexivity). intros H.
    destruct c; [right; exists (rev q); exact X|..]; exfalso; rewrite X in H; apply (f_equal (@length comp)) in H; rewrite app_length in H; cbn in H; lia.
Qed.
Lemma walk_vresolve v : forall out q, Forall (fun c => c <> RootC) v -> vresolve out v = Some q -> walk [] q = walk (walk [] out) v.
Proof.
  induction v as [|c v IH]; intros out q F R; cbn in R; [injection R as <-; reflexivity|]. inversion F as [|? ? N F']; subst.
  destruct c as [| | |n]; [congruence|now apply IH| |injection R as <-; now rewrite walk_app].
  destruct (path_eqb (pop out) out) eqn:P; [|discriminate]. apply path_eqb_spec, pop_fixed in P. rewrite (IH out q F' R).
  change (walk (walk [] out) (ParC :: v)) with (walk (walk1 (walk [] out) ParC) v). f_equal.
  destruct P as [->|(d & ->)]; [reflexivity|]. rewrite walk_app. reflexivity.
Qed.
Lemma vfold_noroot s : forall out, Forall (fun c => c <> RootC) out -> Forall (fun c => c <> RootC) (fold_left vstep s out).
Proof.
  induction s as [|c s IH]; intros out F; [exact F|]. cbn. apply IH. destruct c; cbn; auto; [|constructor; [discriminate|exact F]].
  destruct out as [|[| | |n] out]; try (constructor; [discriminate|]); auto. now inversion F.
Qed.
Lemma vpath_noroot s : Forall (fun c => c <> RootC) (vpath s).
Proof. unfold vpath. apply Forall_rev. apply vfold_noroot. constructor. Qed.
Lemma tail_noroot e d s : single_root e -> e = d ++ s -> d <> [] -> Forall (fun c => c <> RootC) s.
Proof.
  intros S E D. apply Forall_forall. intros c I ->. apply in_split in I as (a & b & ->). rewrite app_assoc in E. apply S in E. apply app_eq_nil in E as [E _]. now apply D.
Qed.
Lemma rooted_place e d s q : path_ok e -> e = d ++ s -> vresolve d (vpath s) = Some q -> walk [] q = walk [] e.
Proof.
  intros OK E R. rewrite (walk_vresolve _ _ _ (vpath_noroot s) R), E, walk_app. destruct d as [|x d].
  - cbn [app] in E. subst s. change (walk [] (@nil comp)) with (@nil (list chr)). destruct e as [|[| | |n] r].
    + reflexivity.
    + change (vpath (RootC :: r)) with (vpath r). change (walk [] (RootC :: r)) with (walk [] r). apply walk_vpath.
      apply (tail_noroot (RootC :: r) [RootC] r); [now apply path_ok_single|reflexivity|discriminate].
    + apply walk_vpath. constructor; [discriminate|]. apply (tail_noroot (CurC :: r) [CurC] r); [now apply path_ok_single|reflexivity|discriminate].
    + apply walk_vpath. constructor; [discriminate|]. apply (tail_noroot (ParC :: r) [ParC] r); [now apply path_ok_single|reflexivity|discriminate].
    + apply walk_vpath. constructor; [discriminate|]. apply (tail_noroot (Nor n :: r) [Nor n] r); [now apply path_ok_single|reflexivity|discriminate].
  - apply walk_vpath. apply (tail_noroot e (x :: d) s); [now apply path_ok_single|exact E|discriminate].
Qed.
(** The forms of an answer. *)
Lemma answer_forms r d (e : path) : (exists x s, e = x ++ s /\ resolve_with_root r d (Some e) = new_rooted x (Some (vpath s))) \/ resolve_with_root r d (Some e) = fallback r.
Proof.
  assert (BP : (exists x s, e = x ++ s /\ new_rooted_by_parent e = Some (new_rooted x (Some (vpath s)))) \/ new_rooted_by_parent e = None).
  { unfold new_rooted_by_parent. destruct (file_name e) as [f|] eqn:F; [left|now right]. apply file_name_some in F as (x & n & E & -> & P). exists x, [Nor n]. rewrite P. auto. }
  unfold resolve_with_root. destruct d as [d|].
  - destruct (strip e d) as [s|] eqn:S; [left; exists d, s; split; [now apply strip_some|reflexivity]|].
    destruct BP as [(x & s & E & ->)| ->]; [left; eauto|now right].
  - destruct BP as [(x & s & E & ->)| ->]; [left; eauto|now right].
Qed.
Lemma fallback_main r : e_main (fallback r) = None.
Proof. unfold fallback. destruct (match r_root r with Some x => Some x | None => first_root r end); reflexivity. Qed.
Theorem main_leads toml r c e p : path_ok e -> main_place (snd (resolve toml r c (Some e))) = Some p -> p = walk [] e.
Proof.
  intros OK. rewrite (proj1 (resolve_spec toml r c e)). unfold answer, main_place.
  destruct (answer_forms r (result toml r (cget e c) e) e) as [(x & s & E & ->)| ->]; [|now rewrite fallback_main].
  cbn [new_rooted e_main]. destruct (vresolve x (vpath s)) as [q|] eqn:V; [|discriminate]. intros H. injection H as <-. now apply (rooted_place e x s).
Qed.
(** Paths of names. *)
Lemma vpath_names ns : vpath (map Nor ns) = map Nor ns.
Proof.
  unfold vpath. assert (X : forall out, fold_left vstep (map Nor ns) out = rev (map Nor ns) ++ out).
  { induction ns as [|n ns IH]; intros out; [reflexivity|]. cbn. rewrite IH. now rewrite <- app_assoc. }
  rewrite X, app_nil_r. apply rev_involutive.
Qed.
Lemma names_split ns x s : RootC :: map Nor ns = x ++ s -> (x = [] /\ s = RootC :: map Nor ns) \/ (exists a b, x = RootC :: map Nor a /\ s = map Nor b /\ ns = a ++ b).
Proof.
  destruct x as [|c x]; intros E; [left; auto|right]. injection E as <- E. apply map_eq_app in E as (a & b & -> & <- & <-). exists a, b. auto.
Qed.
Lemma vresolve_names x ns : vresolve x (map Nor ns) = Some (x ++ map Nor ns).
Proof. destruct ns; cbn; [now rewrite app_nil_r|reflexivity]. Qed.
Theorem main_found toml r c (e : path) ns : ns <> [] -> e = RootC :: map Nor ns ->
  main_place (snd (resolve toml r c (Some e))) = Some (walk [] e) /\
  exists x, e_root (snd (resolve toml r c (Some e))) = Some x /\ inside e x.
Proof.
  intros N EE. rewrite (proj1 (resolve_spec toml r c e)). unfold answer.
  destruct (answer_forms r (result toml r (cget e c) e) e) as [(x & s & E & ->)|F].
  - rewrite EE in E |- *. split; [|exists x; split; [reflexivity|exists s; exact E]]. unfold main_place. cbn [new_rooted e_main]. destruct (names_split ns x s E) as [[-> ->]|(a & b & -> & -> & ->)].
    + change (vpath (RootC :: map Nor ns)) with (vpath (map Nor ns)). rewrite vpath_names, vresolve_names. reflexivity.
    + rewrite vpath_names, vresolve_names. cbn. rewrite map_app. reflexivity.
  - exfalso. unfold resolve_with_root in F. assert (B : new_rooted_by_parent e <> None).
    { rewrite EE. unfold new_rooted_by_parent. destruct ns as [|m ns] using rev_ind; [congruence|]. rewrite map_app, app_comm_cons. unfold file_name. rewrite rev_app_distr. discriminate. }
    destruct (new_rooted_by_parent e) as [st|] eqn:BP; [|congruence].
    assert (M : e_main st <> None). { unfold new_rooted_by_parent in BP. destruct (file_name e); [injection BP as <-; discriminate|discriminate]. }
    pose proof (fallback_main r) as FM. destruct (result toml r (cget e c) e) as [d|]; [destruct (strip e d)|]; rewrite <- F in FM; try (now apply M).
Qed.
(** * Settings *)
Lemma restarts_not toml r c : (r_root r <> None \/ resolve_default r = None \/
   (exists e x, resolve_default r = Some e /\ In x (r_roots r) /\ inside e x) \/ (exists e d, resolve_default r = Some e /\ found toml e = Some d)) -> 
  (forall e, resolve_default r = Some e -> cget e c <> Some None) -> restarts toml r r c = false.
Proof.
  intros H NC. unfold restarts, opts_root. destruct (resolve_default r) as [e|] eqn:RD.
  2: { unfold root. destruct (r_root r) as [x|]; [now rewrite path_eqb_refl|]. destruct (first_root r); [now rewrite path_eqb_refl|reflexivity]. }
  assert (X : result toml r (after toml r (cget e c) e) e = result toml r (cget e c) e).
  { unfold result, after. destruct (r_root r) as [x|]; [reflexivity|]. destruct (find (within e) (r_roots r)) as [x|] eqn:FW; [reflexivity|].
    destruct H as [H|[H|[(e' & x & E & I & IN)|(e' & d & E & F)]]]; try congruence.
    - injection E as <-. apply within_spec in IN. rewrite (find_none _ _ FW x I) in IN. discriminate.
    - injection E as <-. rewrite F. unfold found in F. apply find_some_toml in F. specialize (NC e eq_refl). destruct (cget e c) as [[y|]|]; [|congruence|]; [destruct (toml y) eqn:Y|]; now rewrite ?Y, ?F. }
  destruct (root_spec toml r c e) as (A & B & _). destruct (root toml r c (Some e)) as [c1 a]. cbn [fst snd] in *.
  destruct (root_spec toml r c1 e) as (A' & _ & _). destruct (root toml r c1 (Some e)) as [c2 b]. cbn [fst snd] in *. rewrite B, X in A'. rewrite A, A'.
  destruct (result toml r (cget e c) e); [now rewrite path_eqb_refl|reflexivity].
Qed.
