(** Proofs about the lexical hierarchy and document symbols (C46). *)
From Coq Require Import List Arith Bool Lia.
From Verif Require Import LexModel LexSpec.
Import ListNotations.

Lemma node_ind2 (P : node -> Prop) : (forall n r, P (Ident n r)) -> (forall k r e p cs, Forall P cs -> P (Node k r e p cs)) -> forall n, P n.
Proof. intros A B. fix IH 1. intros [n r|k r e p cs]; [apply A|]. apply B. induction cs; constructor; [apply IH|assumption]. Qed.
Lemma hier_ind2 (P : hier -> Prop) : (forall i cs, Forall P cs -> P (Hier i cs)) -> forall h, P h.
Proof. intros A. fix IH 1. intros [i cs]. apply A. induction cs; constructor; [apply IH|assumption]. Qed.

(** * Stacks *)
Fixpoint flat (s : stack) : list info := match s with [] => [] | (i, c) :: r => flat r ++ i :: flat_map infos c end.
Definition hinfo (h : hier) : info := match h with Hier i _ => i end.
Lemma well_placed_eq i cs : well_placed (Hier i cs) <-> Forall (fun h => may_hold (i_kind i) (i_kind (hinfo h)) /\ well_placed h) cs.
Proof.
  cbn [well_placed]. induction cs as [|[j ds] cs IH]; [split; auto|]. rewrite Forall_cons_iff, <- IH. cbn [hinfo]. tauto.
Qed.
Fixpoint ok (s : stack) : Prop :=
  match s with [] => True | (i, c) :: r => well_placed (Hier i c) /\ match r with (j, _) :: _ => may_hold (i_kind j) (i_kind i) | [] => i_kind i = LRoot end /\ ok r end.
(** What every step keeps. *)
Definition keeps (s s' : stack) (l : list info) : Prop := s' <> [] /\ flat s' = flat s ++ l /\ (ok s -> ok s').
Definition step_ok (f : stack -> option stack) (l : list info) : Prop := forall s, s <> [] -> exists s', f s = Some s' /\ keeps s s' l.
Lemma finish_keeps s : 1 < length s -> exists s', finish s = Some s' /\ keeps s s' [] /\ length s' + 1 = length s.
Proof.
  destruct s as [|[i c] [|[j d] r]]; cbn [length]; try lia. intros _. eexists. split; [reflexivity|]. split; [|cbn; lia]. split; [discriminate|]. split.
  - cbn [flat]. rewrite flat_map_app. cbn [flat_map infos]. rewrite !app_nil_r, <- app_assoc. reflexivity.
  - cbn [ok]. intros (A & B & C & D & E). repeat split; auto. apply well_placed_eq. apply well_placed_eq in C. apply Forall_app. split; [exact C|]. constructor; [|constructor]. now split.
Qed.
Lemma keeps_refl s : s <> [] -> keeps s s [].
Proof. intros H. split; [exact H|]. split; [now rewrite app_nil_r|auto]. Qed.
Lemma keeps_trans s t u a b : keeps s t a -> keeps t u b -> keeps s u (a ++ b).
Proof. intros (A & B & C) (D & E & F). split; [exact D|]. split; [now rewrite E, B, app_assoc|auto]. Qed.
Lemma finish_n_keeps n : forall s, n < length s -> exists s', finish_n n s = Some s' /\ keeps s s' [] /\ length s' + n = length s.
Proof.
  induction n as [|n IH]; intros s L; cbn [finish_n]; [exists s; repeat split; auto; try lia; [destruct s; [cbn in L; lia|discriminate]|now rewrite app_nil_r]|].
  destruct (finish_keeps s) as (s1 & -> & K & L1); [lia|]. destruct (IH s1) as (s2 & E & K2 & L2); [lia|]. exists s2. split; [exact E|]. split; [|lia]. exact (keeps_trans _ _ _ [] [] K K2).
Qed.
Lemma finish_to_keeps h s : 2 <= h -> s <> [] -> exists s', finish_to h s = Some s' /\ keeps s s' [].
Proof. intros H N. destruct s as [|f s]; [congruence|]. destruct (finish_n_keeps (length (f :: s) + 1 - h) (f :: s)) as (s' & E & K & _); [cbn [length]; lia|]. exists s'. now split. Qed.
Lemma pop_keeps fuel level : forall s, s <> [] -> length s <= fuel -> exists s', pop_heading fuel level s = Some s' /\ keeps s s' [] /\
  (ok s -> match s' with (j, _) :: _ => may_hold (i_kind j) (LHeading level) | [] => False end).
Proof.
  induction fuel as [|fuel IH]; intros s N L; [destruct s; [congruence|cbn in L; lia]|]. cbn [pop_heading]. destruct s as [|[w c] r]; [congruence|].
  destruct (_ || _) eqn:B.
  - eexists. split; [reflexivity|]. split; [now apply keeps_refl|]. intros (_ & O & _). apply orb_prop in B as [B|B].
    + unfold may_hold. destruct (i_kind w); try discriminate; auto. now apply Nat.ltb_lt.
    + apply Nat.leb_le in B. destruct r; [|cbn in B; lia]. rewrite O. exact I.
  - apply orb_false_iff in B as [_ B]. apply Nat.leb_gt in B. destruct (finish_keeps ((w, c) :: r) B) as (s1 & -> & K & L1). destruct (IH s1) as (s2 & E & K2 & T); [apply K|lia|].
    exists s2. split; [exact E|]. split; [exact (keeps_trans _ _ _ [] [] K K2)|]. intros O. apply T. now apply K.
Qed.
Lemma push_keeps s i : s <> [] -> (ok s -> match s with (j, _) :: _ => may_hold (i_kind j) (i_kind i) | [] => False end) -> keeps s ((i, []) :: s) [i].
Proof.
  intros N H. split; [discriminate|]. split; [reflexivity|]. intros O. cbn [ok]. split; [apply well_placed_eq; constructor|]. split; [|exact O]. specialize (H O). destruct s as [|[j d] s]; [congruence|exact H].
Qed.
Lemma push_plain s i : s <> [] -> (forall l, i_kind i <> LHeading l) -> keeps s ((i, []) :: s) [i].
Proof. intros N H. apply push_keeps; [exact N|]. intros _. destruct s as [|[j d] s]; [congruence|]. unfold may_hold. destruct (i_kind i); auto. now destruct (H level). Qed.

(** * Steps *)
Definition alike (a b : nat) : Prop := a = b \/ (2 <= a /\ 2 <= b).
Lemma process_sort n nl nl' : alike nl nl' -> match sort_of n with
  | Blank k => is_plain n = true /\ (if 2 <=? nl' + k then exists x, process n nl = (SgBreak, x) /\ alike x (nl' + k) else exists x, process n nl = (SgSpace, x) /\ alike x (nl' + k))
  | Remark => process n nl = (SgComment, 0)
  | Thing => process n nl = (SgBreak, 0)
  end.
Proof.
  intros A. destruct n as [|k r e p cs]; [reflexivity|]. destruct k; try reflexivity; cbn [sort_of]; (split; [reflexivity|]).
  - destruct (2 <=? nl' + (if newline then 1 else 0)) eqn:E; [apply Nat.leb_le in E|apply Nat.leb_gt in E]; cbn [process]; unfold alike in *; destruct newline.
    + exists (nl + 1). rewrite (proj2 (Nat.ltb_lt _ _)) by lia. split; [reflexivity|lia].
    + exists nl. rewrite (proj2 (Nat.ltb_lt _ _)) by lia. split; [reflexivity|lia].
    + exists (nl + 1). rewrite (proj2 (Nat.ltb_ge _ _)) by lia. split; [reflexivity|lia].
    + exists nl. rewrite (proj2 (Nat.ltb_ge _ _)) by lia. split; [reflexivity|lia].
  - rewrite (proj2 (Nat.leb_le _ _)) by lia. exists 2. split; [reflexivity|]. right. lia.
Qed.
Lemma nodes_keeps l : forall fs nl nl' cr, alike nl nl' -> Forall2 (fun x y => fst x = fst y /\ step_ok (snd x) (snd y)) l fs -> step_ok (check_nodes l nl cr) (found_nodes fs nl' cr).
Proof.
  induction l as [|[n f] l IH]; intros fs nl nl' cr A F s N; inversion F as [|x y l0 fs' [E S] F']; subst; [exists s; split; [reflexivity|now apply keeps_refl]|]. destruct y as [n' g]. cbn [fst snd] in *. subst n'.
  cbn [check_nodes found_nodes]. pose proof (process_sort n nl nl' A) as PS.
  set (s1 := match cr with Some r => (comment_info r, []) :: s | None => s end).
  assert (K : keeps s s1 (group cr)). { unfold s1, group. destruct cr; [apply push_plain; [exact N|discriminate]|now apply keeps_refl]. }
  destruct (sort_of n).
  - destruct PS as [PL PS]. rewrite PL. destruct (2 <=? nl' + newlines); destruct PS as (x & -> & AX); [|now apply IH].
    fold s1. destruct (IH fs' x (nl' + newlines) None AX F' s1) as (s2 & E & K2); [apply K|]. exists s2. split; [exact E|]. exact (keeps_trans _ _ _ _ _ K K2).
  - rewrite PS. apply IH; [now left|exact F'|exact N].
  - rewrite PS. fold s1. destruct (is_plain n).
    + cbn [app]. destruct (IH fs' 0 0 None (or_introl eq_refl) F' s1) as (s2 & E & K2); [apply K|]. exists s2. split; [exact E|]. exact (keeps_trans _ _ _ _ _ K K2).
    + destruct (S s1) as (s2 & -> & K2); [apply K|]. destruct (IH fs' 0 0 None (or_introl eq_refl) F' s2) as (s3 & E & K3); [apply K2|]. exists s3. split; [exact E|]. apply (keeps_trans _ _ _ _ _ K). exact (keeps_trans _ _ _ _ _ K2 K3).
Qed.
Lemma seq_keeps f g a b : step_ok f a -> step_ok g b -> step_ok (fun s => seq_ (f s) g) (a ++ b).
Proof. intros F G s N. destruct (F s N) as (s1 & E & K). cbn. rewrite E. cbn [seq_]. destruct (G s1) as (s2 & E2 & K2); [apply K|]. exists s2. split; [exact E2|exact (keeps_trans _ _ _ _ _ K K2)]. Qed.
Lemma skip_ok : step_ok (fun s => Some s) [].
Proof. intros s N. exists s. split; [reflexivity|now apply keeps_refl]. Qed.
Section Pairs.
Variables (A B C : Type) (f : A -> B) (g : A -> C) (R : B -> C -> Prop).
Let pf := fun x => (x, f x).
Let pg := fun x => (x, g x).
Lemma find_pair p l : find (fun x => p (fst x)) (map pf l) = option_map pf (find p l).
Proof. induction l as [|x l IH]; cbn; [reflexivity|]. unfold pf at 1. cbn. destruct (p x); [reflexivity|exact IH]. Qed.
Lemma skip_pair p l : skip_while (fun x => p (fst x)) (map pf l) = map pf (skip_while p l).
Proof. induction l as [|x l IH]; cbn; [reflexivity|]. unfold pf at 1. cbn. destruct (p x); [exact IH|reflexivity]. Qed.
End Pairs.
Lemma skip_incl {A} (p : A -> bool) l x : In x (skip_while p l) -> In x l.
Proof. induction l as [|y l IH]; cbn; [tauto|]. destruct (p y); cbn; [auto|auto]. Qed.
Section Node.
Variable m : mode.
Definition good (n : node) : Prop := forall par c, step_ok (check_node m par n c) (finds m par n c).
Variables (k : skind) (cs : list node).
Hypothesis G : Forall good cs.
Let rs := map (fun x => (x, check_node m (Some k) x)) cs.
Let fs := map (fun x => (x, finds m (Some k) x)) cs.
Lemma opt_keeps p c ds : (forall x, In x ds -> In x cs) ->
  step_ok (check_opt (find (fun x => p (fst x)) (map (fun x => (x, check_node m (Some k) x)) ds)) c) (found_opt (find (fun x => p (fst x)) (map (fun x => (x, finds m (Some k) x)) ds)) c).
Proof.
  intros I. rewrite !find_pair. destruct (find p ds) as [x|] eqn:E; cbn [option_map check_opt found_opt]; [|apply skip_ok]. apply find_some in E as [E _]. rewrite Forall_forall in G. apply (G x (I x E)).
Qed.
Lemma first_keeps ds after : (forall x, In x ds -> In x cs) ->
  step_ok (check_first (map (fun x => (x, check_node m (Some k) x)) ds) after) (found_first (map (fun x => (x, finds m (Some k) x)) ds) after).
Proof.
  intros I. unfold check_first, found_first. rewrite !find_pair. destruct (find is_expr ds) as [x|] eqn:E; cbn [option_map]; [|apply skip_ok]. apply find_some in E as [E _]. destruct (match after with Some _ => _ | None => _ end); [apply skip_ok|].
  rewrite Forall_forall in G. apply (G x (I x E)).
Qed.
Lemma all_nodes c : step_ok (check_nodes (map (fun x => (fst x, snd x c)) rs) 0 None) (found_nodes (map (fun x => (fst x, snd x c)) fs) 0 None).
Proof.
  apply nodes_keeps; [now left|]. unfold rs, fs. rewrite !map_map. cbn [fst snd]. clear rs fs. induction G as [|x xs Gx _ IH]; cbn [map]; [constructor|]. constructor; [split; [reflexivity|apply Gx]|]. apply IH. exact (Forall_inv_tail G).
Qed.
End Node.
Lemma ident_keeps m par c n r : step_ok (check_node m par (Ident n r) c) (finds m par (Ident n r) c).
Proof.
  intros s N. cbn [check_node finds]. destruct (get_ident m par c (Ident n r)) as [i|] eqn:E; [|apply skip_ok; exact N].
  destruct (finish_to_keeps (length s + 1) ((i, []) :: s)) as (s' & F & K); [destruct s; [congruence|cbn; lia]|discriminate|]. exists s'. split; [exact F|].
  assert (P : keeps s ((i, []) :: s) [i]). { apply push_plain; [exact N|]. cbn in E. destruct m, c; try discriminate; injection E as <-; discriminate. }
  exact (keeps_trans _ _ _ [i] [] P K).
Qed.
Lemma own_plain s i f l : (forall lv, i_kind i <> LHeading lv) -> step_ok f l -> s <> [] -> exists s', seq_ (f ((i, []) :: s)) (finish_to (length ((i, []) :: s))) = Some s' /\ keeps s s' (i :: l).
Proof.
  intros H S N. pose proof (push_plain s i N H) as P. destruct (S ((i, []) :: s)) as (s1 & -> & K1); [discriminate|]. cbn [seq_]. destruct (finish_to_keeps (length ((i, []) :: s)) s1) as (s2 & E & K2); [destruct s; [congruence|cbn; lia]|apply K1|].
  exists s2. split; [exact E|]. pose proof (keeps_trans _ _ _ _ _ P (keeps_trans _ _ _ _ _ K1 K2)) as K. now rewrite app_nil_r in K.
Qed.
Lemma own_heading s i f l lv : i_kind i = LHeading lv -> step_ok f l -> s <> [] ->
  exists s', seq_ (pop_heading (length s) lv s) (fun s => seq_ (f ((i, []) :: s)) (finish_to (length ((i, []) :: s) + 1))) = Some s' /\ keeps s s' (i :: l).
Proof.
  intros H S N. destruct (pop_keeps (length s) lv s N (le_n _)) as (s0 & -> & K0 & T). cbn [seq_]. assert (N0 : s0 <> []) by apply K0.
  destruct (S ((i, []) :: s0)) as (s1 & -> & K1); [discriminate|]. cbn [seq_]. destruct (finish_to_keeps (length ((i, []) :: s0) + 1) s1) as (s2 & E & K2); [destruct s0; [congruence|cbn; lia]|apply K1|].
  exists s2. split; [exact E|]. assert (P : keeps s ((i, []) :: s0) [i]).
  { split; [discriminate|]. split; [cbn [flat]; now rewrite (proj1 (proj2 K0)), app_nil_r|]. intros O. cbn [ok]. split; [apply well_placed_eq; constructor|]. split; [|now apply K0]. specialize (T O). rewrite H. destruct s0 as [|[j d] s0]; [congruence|exact T]. }
  pose proof (keeps_trans _ _ _ _ _ P (keeps_trans _ _ _ _ _ K1 K2)) as K. now rewrite app_nil_r in K.
Qed.
Lemma get_kind m par c k r e p cs i lv : get_ident m par c (Node k r e p cs) = Some i -> i_kind i = LHeading lv -> k <> KImport.
Proof. cbn. destruct k; try discriminate; intros; congruence. Qed.
Lemma closure_keeps m cs : Forall (good m) cs -> forall r (par : option skind) (c : ctx) w ch below,
  exists s', (let rs := map (fun x => (x, check_node m (Some KClosure) x)) cs in
   seq_ (match hd_error rs with Some x => if is_ident (fst x) then snd x CFunc ((w, ch) :: below) else Some ((w, ch) :: below) | None => Some ((w, ch) :: below) end) (fun s =>
     match find (fun x => is_expr (fst x)) (rev rs) with
     | None => Some s
     | Some (_, f) =>
         match s with
         | [] => None
         | (w, children) :: below =>
             match (if length ch =? length children then Some (mkInfo 1 LFunction r, s)
                    else match rev children with [] => None | Hier i _ :: init => Some (mkInfo (i_name i) (i_kind i) r, (w, rev init) :: below) end) with
             | None => None
             | Some (i, s) => let s := (i, []) :: s in seq_ (f CRef s) (finish_to (length s))
             end
         end
     end)) = Some s' /\
  keeps ((w, ch) :: below) s'
   (let named := match cs with Ident name r' :: _ => match m with Symbol => Some (name, r') | Braced => None end | _ => None end in
    match find (fun x => is_expr (fst x)) (rev (map (fun x => (x, finds m (Some KClosure) x)) cs)) with
    | None => match named with Some (name, r') => [mkInfo name LFunction r'] | None => [] end
    | Some (_, f) => mkInfo (match named with Some (name, _) => name | None => 1 end) LFunction r :: f CRef
    end).
Proof.
  intros G r par c w ch below. cbv zeta. rewrite <- !map_rev, !find_pair.
  assert (BODY : forall x, find is_expr (rev cs) = Some x -> good m x). { intros x E. apply find_some in E as [E _]. apply in_rev in E. rewrite Forall_forall in G. now apply G. }
  assert (ANON : exists s', match option_map (fun x => (x, check_node m (Some KClosure) x)) (find is_expr (rev cs)) with
     | None => Some ((w, ch) :: below)
     | Some (_, f) => match (if length ch =? length ch then Some (mkInfo 1 LFunction r, (w, ch) :: below)
                    else match rev ch with [] => None | Hier i _ :: init => Some (mkInfo (i_name i) (i_kind i) r, (w, rev init) :: below) end) with
             | None => None
             | Some (i, s) => let s := (i, []) :: s in seq_ (f CRef s) (finish_to (length s)) end end = Some s' /\
     keeps ((w, ch) :: below) s' match option_map (fun x => (x, finds m (Some KClosure) x)) (find is_expr (rev cs)) with None => [] | Some (_, f) => mkInfo 1 LFunction r :: f CRef end).
  { destruct (find is_expr (rev cs)) as [x|] eqn:E; cbn [option_map]; [|now apply skip_ok]. rewrite Nat.eqb_refl. cbv zeta.
    apply own_plain; [discriminate|apply (BODY x eq_refl)|discriminate]. }
  destruct cs as [|[nm r'|k' r' e' p' cs'] cs0]; [exact ANON| |exact ANON]. destruct m; [|exact ANON]. clear ANON. cbn [map hd_error fst snd is_ident check_node get_ident].
  assert (F : finish_to (length ((w, ch) :: below) + 1) ((mkInfo nm LFunction r', []) :: (w, ch) :: below) = Some ((w, ch ++ [Hier (mkInfo nm LFunction r') []]) :: below)).
  { unfold finish_to. cbn [length]. replace (S (S (length below)) + 1 - (S (length below) + 1)) with 1 by lia. reflexivity. }
  rewrite F. cbn [seq_]. destruct (find is_expr (rev (Ident nm r' :: cs0))) as [x|] eqn:E; cbn [option_map].
  - rewrite app_length. cbn [length]. rewrite (proj2 (Nat.eqb_neq _ _)) by lia. rewrite rev_app_distr. cbn [rev app]. rewrite rev_involutive. cbn [i_name i_kind]. cbv zeta.
    apply own_plain; [discriminate|apply (BODY x eq_refl)|discriminate].
  - eexists. split; [reflexivity|]. destruct (finish_keeps ((mkInfo nm LFunction r', []) :: (w, ch) :: below)) as (s' & E' & K & _); [cbn; lia|]. cbn [finish] in E'. injection E' as <-.
    refine (keeps_trans _ _ _ [_] [] _ K). apply push_plain; discriminate.
Qed.
Theorem check_good m n : good m n.
Proof.
  induction n as [n r|k r e p cs G] using node_ind2; intros par c s N; [now apply ident_keeps|].
  cbn [check_node finds]. pose proof (all_nodes m k cs G (enter k c)) as NODES.
  set (nodes := check_nodes (map (fun x => (fst x, snd x (enter k c))) (map (fun x => (x, check_node m (Some k) x)) cs)) 0 None) in *.
  set (fnodes := found_nodes (map (fun x => (fst x, snd x (enter k c))) (map (fun x => (x, finds m (Some k) x)) cs)) 0 None) in *.
  destruct (get_ident m par c (Node k r e p cs)) as [i|] eqn:GI.
  - assert (PL : (forall lv, i_kind i <> LHeading lv) -> exists s', seq_ (match k with KImport => Some ((i, []) :: s) | _ => nodes ((i, []) :: s) end) (finish_to (length ((i, []) :: s))) = Some s' /\ keeps s s' (i :: match k with KImport => [] | _ => fnodes end)).
    { intros H. destruct k; try (apply (own_plain s i nodes fnodes); assumption). apply (own_plain s i (fun s => Some s) []); auto using skip_ok. }
    destruct (i_kind i) eqn:KI; try (apply PL; discriminate). pose proof (get_kind _ _ _ _ _ _ _ _ _ _ GI KI) as KN.
    destruct (own_heading s i nodes fnodes level KI NODES N) as (s' & E & K). exists s'. split; [exact E|]. destruct k; try exact K. congruence.
  - assert (REV : forall x, In x (rev cs) -> In x cs) by (intros x X; now apply in_rev). destruct k; try (apply NODES; assumption); try (now apply skip_ok).
    + (* let *) rewrite <- !map_rev. destruct (find (fun x => is_pat (fst x)) (map (fun x => (x, check_node m (Some KLet) x)) cs)) as [[x f]|] eqn:E1.
      * rewrite find_pair in E1. destruct (find is_pat cs) as [x'|] eqn:E2; [|discriminate]. cbn [option_map] in E1. injection E1 as <- <-.
        assert (E3 : find (fun x => is_pat (fst x)) (map (fun x => (x, finds m (Some KLet) x)) cs) = Some (x', finds m (Some KLet) x')) by (rewrite find_pair, E2; reflexivity). rewrite E3. cbn [fst option_map].
        apply find_some in E2 as [E2 _]. rewrite Forall_forall in G. destruct (is_closure x'); [apply (G x' E2); exact N|]. apply (seq_keeps (check_opt (Some (x', check_node m (Some KLet) x')) CVar)); [apply (G x' E2)| |exact N]. apply (first_keeps m KLet cs); [now apply Forall_forall|exact REV].
      * rewrite find_pair in E1. destruct (find is_pat cs) as [x'|] eqn:E2; [discriminate|]. assert (E3 : find (fun x => is_pat (fst x)) (map (fun x => (x, finds m (Some KLet) x)) cs) = None) by (rewrite find_pair, E2; reflexivity). rewrite E3. cbn [option_map check_opt found_opt seq_ app].
        apply (first_keeps m KLet cs); auto.
    + (* closure *) destruct s as [|[w ch] below]; [congruence|]. apply (closure_keeps m cs G r par c w ch below).
    + (* for *) rewrite <- !map_rev. rewrite !(skip_pair _ _ _ (fun x => negb (is_in x))). set (ds := skip_while _ cs).
      assert (DS : forall x, In x ds -> In x cs) by (intros x; apply skip_incl).
      assert (AF : option_map (fun x => fst (range_of (fst x))) (find (fun x => is_expr (fst x)) (map (fun x => (x, check_node m (Some KFor) x)) ds)) =
                   option_map (fun x => fst (range_of (fst x))) (find (fun x => is_expr (fst x)) (map (fun x => (x, finds m (Some KFor) x)) ds))).
      { rewrite !find_pair. now destruct (find is_expr ds). }
      rewrite AF. set (after := option_map _ _). clearbody after. revert N. revert s.
      apply (seq_keeps (check_opt _ CRef) (fun s => seq_ (check_opt _ CVar s) _)); [now apply (opt_keeps m KFor cs G is_expr)|].
      apply seq_keeps; [now apply (opt_keeps m KFor cs G is_pat)|]. now apply (first_keeps m KFor cs).
    + (* field *) apply (first_keeps m KField cs); auto.
    + (* named *) rewrite <- !map_rev. apply seq_keeps; [apply (first_keeps m KNamed cs); auto| |exact N]. destruct (enter KNamed c); try apply skip_ok. apply (opt_keeps m KNamed cs G is_ident); auto.
Qed.

(** * The whole *)
Theorem hierarchy_total m root : exists hs, get_lexical_hierarchy m root = Some hs /\ flat_map infos hs = finds m None root CRef /\ well_placed (Hier (mkInfo 0 LRoot (0, 0)) hs).
Proof.
  unfold get_lexical_hierarchy. set (b := (mkInfo 0 LRoot (0, 0), @nil hier)).
  destruct (check_good m root None CRef [b]) as (s & -> & K); [discriminate|].
  assert (BOT : forall s : stack, s <> [] -> exists s', finish_to 2 s = Some s' /\ keeps s s' [] /\ length s' = 1).
  { clear. intros s N. destruct s as [|f s]; [congruence|]. destruct (finish_n_keeps (length (f :: s) + 1 - 2) (f :: s)) as (s' & E & K & L); [cbn [length]; lia|]. exists s'. split; [exact E|]. split; [exact K|]. cbn [length] in *. lia. }
  destruct (BOT s) as (s' & -> & K' & L); [apply K|]. pose proof (keeps_trans _ _ _ _ _ K K') as (_ & FL & OK). rewrite app_nil_r in FL.
  destruct s' as [|[i cs] [|? ?]]; try discriminate. exists cs. split; [reflexivity|]. cbn in FL. injection FL as FI FC. split; [exact FC|].
  destruct OK as (W & _); [cbn; auto|]. now rewrite <- FI.
Qed.

(** * What is found *)
Lemma nodes_found l : forall x f nl cr, In (x, f) l -> is_plain x = false -> incl f (found_nodes l nl cr).
Proof.
  induction l as [|[n g] l IH]; intros x f nl cr I P; [destruct I|]. cbn [found_nodes]. destruct I as [I|I].
  - injection I as -> ->. assert (E : sort_of x = Thing) by (destruct x as [|[]]; try discriminate; reflexivity). rewrite E, P. apply incl_appr, incl_appl, incl_refl.
  - destruct (sort_of n); [destruct (2 <=? nl + newlines); [apply incl_appr|]; eapply IH; eauto|eapply IH; eauto|]. apply incl_appr, incl_appr. eapply IH; eauto.
Qed.
Lemma inside_found par n par' y : inside par n par' y -> forall i, (forall c, In i (finds Symbol par' y c)) -> forall c, In i (finds Symbol par n c).
Proof.
  induction 1 as [par n|par k r e p cs x par' y T I P _ IH]; intros i H c; [apply H|]. specialize (IH i H).
  assert (A : In i (found_nodes (map (fun x => (fst x, snd x (enter k c))) (map (fun x => (x, finds Symbol (Some k) x)) cs)) 0 None)).
  { refine (nodes_found _ x (finds Symbol (Some k) x (enter k c)) 0 None _ P i (IH _)). rewrite map_map. apply in_map_iff. exists x. split; [reflexivity|exact I]. }
  cbn [finds]. destruct (get_ident _ _ _ _) as [j|]; [|destruct k; try discriminate T; exact A].
  right. destruct k; try discriminate T; exact A.
Qed.
Lemma defines_found par n i : defines par n i -> forall c, In i (finds Symbol par n c).
Proof.
  destruct 1 as [par r0 e p cs x r E|par r0 e p cs f r' r e' p' ccs E|d t r e p cs|par name r e p cs]; intros c; cbn [finds get_ident].
  - rewrite find_pair, E. cbn [option_map fst is_closure found_opt]. apply in_or_app. left. now left.
  - rewrite find_pair, E. cbn [option_map fst is_closure found_opt]. cbn [finds get_ident map]. rewrite <- map_cons with (f := fun x => (x, finds Symbol (Some KClosure) x)), <- map_rev, find_pair.
    destruct (find is_expr (rev (Ident f r' :: ccs))) eqn:F; [now left|]. apply find_none with (x := Ident f r') in F; [discriminate|]. apply in_rev. rewrite rev_involutive. now left.
  - now left.
  - now left.
Qed.
Theorem found root par y i : inside None root par y -> defines par y i -> In i (finds Symbol None root CRef).
Proof. intros I D. apply (inside_found _ _ _ _ I). now apply defines_found. Qed.

(** * Document symbols *)
Lemma subseq_refl {A} (l : list A) : subseq l l.
Proof. induction l; now constructor. Qed.
Lemma subseq_nil {A} (l : list A) : subseq [] l.
Proof. induction l; now constructor. Qed.
Lemma subseq_app {A} (a b c d : list A) : subseq a b -> subseq c d -> subseq (a ++ c) (b ++ d).
Proof. induction 1; intros; cbn; auto; constructor; auto. Qed.
Lemma symbols_sub h : subseq (flat_map dinfos (symbols h)) (infos h).
Proof.
  induction h as [[n k r] cs IH] using hier_ind2. cbn [symbols infos i_kind i_name i_range]. destruct (is_symbol k); [|apply subseq_nil]. cbn [flat_map dinfos]. rewrite app_nil_r. constructor.
  induction IH as [|h cs H _ IH]; [constructor|]. cbn [flat_map]. rewrite flat_map_app. now apply subseq_app.
Qed.
Lemma all_sub hs : subseq (flat_map dinfos (flat_map symbols hs)) (flat_map infos hs).
Proof. induction hs as [|h hs IH]; [constructor|]. cbn [flat_map]. rewrite flat_map_app. apply subseq_app; [apply symbols_sub|exact IH]. Qed.
Lemma symbols_kind h : Forall (fun i => is_symbol (i_kind i) = true) (flat_map dinfos (symbols h)).
Proof.
  induction h as [[n k r] cs IH] using hier_ind2. cbn [symbols i_kind i_name i_range]. destruct (is_symbol k) eqn:E; [|constructor]. cbn [flat_map dinfos]. rewrite app_nil_r. constructor; [exact E|].
  induction IH as [|h cs H _ IH]; [constructor|]. cbn [flat_map]. rewrite flat_map_app. apply Forall_app. now split.
Qed.
Lemma all_kind hs : Forall (fun i => is_symbol (i_kind i) = true) (flat_map dinfos (flat_map symbols hs)).
Proof. induction hs as [|h hs IH]; [constructor|]. cbn [flat_map]. rewrite flat_map_app. apply Forall_app. split; [apply symbols_kind|exact IH]. Qed.
(** The longest prefix of symbols. *)
Fixpoint pre (l : list info) : list info := match l with [] => [] | i :: r => if is_symbol (i_kind i) then i :: pre r else [] end.
Definition clean (l : list info) : bool := forallb (fun i => is_symbol (i_kind i)) l.
Lemma pre_app a b : pre (a ++ b) = if clean a then a ++ pre b else pre a.
Proof. induction a as [|i a IH]; [reflexivity|]. cbn [app pre clean forallb]. fold (clean a). destruct (is_symbol (i_kind i)); [|reflexivity]. rewrite IH. now destruct (clean a). Qed.
Definition prefix {A} (a b : list A) : Prop := exists c, b = a ++ c.
Definition sym1 (h : hier) : Prop := (clean (infos h) = true -> flat_map dinfos (symbols h) = infos h) /\ prefix (pre (infos h)) (flat_map dinfos (symbols h)).
Lemma sym_list cs : Forall sym1 cs -> (clean (flat_map infos cs) = true -> flat_map dinfos (flat_map symbols cs) = flat_map infos cs) /\ prefix (pre (flat_map infos cs)) (flat_map dinfos (flat_map symbols cs)).
Proof.
  induction 1 as [|h cs [A B] _ [C D]]; [split; [reflexivity|now exists []]|]. cbn [flat_map]. rewrite flat_map_app. split.
  - unfold clean. rewrite forallb_app. intros X. apply andb_prop in X as [X Y]. now rewrite A, C.
  - rewrite pre_app. destruct (clean (infos h)) eqn:X.
    + rewrite (A eq_refl). destruct D as [d ->]. exists d. now rewrite app_assoc.
    + destruct B as [d ->]. eexists. now rewrite <- app_assoc.
Qed.
Lemma sym_all h : sym1 h.
Proof.
  induction h as [[n k r] cs IH] using hier_ind2. destruct (sym_list cs IH) as [A B]. unfold sym1. cbn [symbols infos i_kind i_name i_range clean forallb pre]. fold (clean (flat_map infos cs)). destruct (is_symbol k); [|split; [discriminate|now eexists]].
  cbn [flat_map dinfos andb]. rewrite app_nil_r. split; [intros X; now rewrite A|]. destruct B as [d ->]. now exists d.
Qed.
Theorem symbols_sound root : exists ds, document_symbols root = Some ds /\ subseq (flat_map dinfos ds) (finds Symbol None root CRef) /\ Forall (fun i => is_symbol (i_kind i) = true) (flat_map dinfos ds).
Proof.
  destruct (hierarchy_total Symbol root) as (hs & E & F & _). exists (flat_map symbols hs). unfold document_symbols. rewrite E. split; [reflexivity|]. rewrite <- F. split; [apply all_sub|apply all_kind].
Qed.
Theorem symbols_before root ds a b : document_symbols root = Some ds -> finds Symbol None root CRef = a ++ b -> Forall (fun i => is_symbol (i_kind i) = true) a -> exists c, flat_map dinfos ds = a ++ c /\ (b = [] -> c = []).
Proof.
  intros D F A. destruct (hierarchy_total Symbol root) as (hs & E & F' & _). unfold document_symbols in D. rewrite E in D. injection D as <-.
  destruct (sym_list hs) as [X [d Y]]; [apply Forall_forall; intros; apply sym_all|]. rewrite F', F in X, Y.
  assert (CA : clean a = true) by (apply forallb_forall; rewrite Forall_forall in A; exact A). rewrite pre_app, CA in Y.
  exists (pre b ++ d). split; [rewrite Y; now rewrite app_assoc|]. intros ->. rewrite app_nil_r in X. rewrite (X CA), app_nil_r in Y. cbn [pre app] in *. rewrite <- (app_nil_r a) in Y at 1. now apply app_inv_head in Y.
Qed.
Lemma levels_eq n k r cs : levels_ok (DSym n k r cs) <-> Forall (fun d => match d with DSym _ k' _ _ => match k', k with LHeading b, LHeading a => a < b | LHeading _, _ => False | _, _ => True end end /\ levels_ok d) cs.
Proof. cbn [levels_ok]. induction cs as [|[n' k' r' cs'] cs IH]; [split; auto|]. rewrite Forall_cons_iff, <- IH. tauto. Qed.
Lemma levels h : well_placed h -> Forall levels_ok (symbols h).
Proof.
  induction h as [[n k r] cs IH] using hier_ind2. intros W. apply well_placed_eq in W. cbn [symbols i_kind i_name i_range] in *. destruct (is_symbol k) eqn:S; [|constructor]. constructor; [|constructor]. apply levels_eq.
  induction IH as [|h cs H _ IH]; [constructor|]. apply Forall_cons_iff in W as [[M P] W]. cbn [flat_map]. apply Forall_app. split; [|now apply IH]. specialize (H P).
  destruct h as [[n' k' r'] ds]. cbn [symbols i_kind i_name i_range hinfo] in *. destruct (is_symbol k') eqn:S'; constructor; [|constructor]. apply Forall_inv in H. split; [|exact H].
  unfold may_hold in M. destruct k'; auto. destruct k; auto; discriminate.
Qed.
Theorem symbols_levels root ds : document_symbols root = Some ds -> Forall levels_ok ds.
Proof.
  unfold document_symbols. destruct (hierarchy_total Symbol root) as (hs & E & _ & W). rewrite E. cbn. intros D. injection D as <-. apply well_placed_eq in W.
  induction hs as [|h hs IH]; [constructor|]. apply Forall_cons_iff in W as [[_ P] W]. cbn [flat_map]. apply Forall_app. split; [now apply levels|]. clear -W.
  induction W as [|h hs [_ P] _ IH]; [constructor|]. cbn [flat_map]. apply Forall_app. split; [now apply levels|exact IH].
Qed.
Lemma shown_iff k : is_symbol k = true <-> shown k.
Proof. destruct k; cbn; split; intros; auto; try discriminate; contradiction. Qed.
Theorem symbols_sound' root : exists ds, document_symbols root = Some ds /\ subseq (flat_map dinfos ds) (finds Symbol None root CRef) /\ Forall (fun i => shown (i_kind i)) (flat_map dinfos ds).
Proof. destruct (symbols_sound root) as (ds & A & B & C). exists ds. split; [exact A|]. split; [exact B|]. refine (Forall_impl _ _ C). intros i. apply shown_iff. Qed.
Theorem symbols_before' root ds a b : document_symbols root = Some ds -> finds Symbol None root CRef = a ++ b -> Forall (fun i => shown (i_kind i)) a -> exists c, flat_map dinfos ds = a ++ c /\ (b = [] -> c = []).
Proof. intros D F A. apply (symbols_before root ds a b D F). refine (Forall_impl _ _ A). intros i. apply shown_iff. Qed.

(** * Blocks *)
Definition isblock (i : info) : Prop := i_kind i = LBlock.
(** What is below a block on the stack stays, and the block only gets more children. *)
Definition under (s s' : stack) : Prop := forall top b d rest, s = top ++ (b, d) :: rest -> isblock b -> exists top' d', s' = top' ++ (b, d ++ d') :: rest.
Definition occ (h : hier) (s : stack) : Prop := exists i c g, In (i, c) s /\ In g c /\ sub h g.
Definition persists (s s' : stack) : Prop := forall i d, isblock i -> occ (Hier i d) s -> occ (Hier i d) s'.
Definition calm (s s' : stack) : Prop := under s s' /\ persists s s'.
Definition calm_step (f : stack -> option stack) : Prop := forall s s', s <> [] -> f s = Some s' -> calm s s'.
Lemma calm_refl s : calm s s.
Proof. split; [|intros i d _ H; exact H]. intros top b d rest E _. exists top, []. now rewrite app_nil_r. Qed.
Lemma calm_trans s t u : calm s t -> calm t u -> calm s u.
Proof.
  intros [A B] [C D]. split; [|intros i d H O; apply D; auto]. intros top b d rest E K. destruct (A top b d rest E K) as (top1 & d1 & E1). destruct (C top1 b (d ++ d1) rest E1 K) as (top2 & d2 & E2). exists top2, (d1 ++ d2). now rewrite app_assoc.
Qed.
Lemma calm_push s i : calm s ((i, []) :: s).
Proof.
  split.
  - intros top b d rest -> _. exists ((i, []) :: top), []. now rewrite app_nil_r.
  - intros j d _ (k & c & g & I & R). exists k, c, g. split; [now right|exact R].
Qed.
Lemma finish_persists s s' : finish s = Some s' -> persists s s'.
Proof.
  destruct s as [|[i c] [|[j d] r]]; try discriminate. intros E. injection E as <-. intros k e K (k' & c' & g & [I|[I|I]] & G & S).
  - injection I as <- <-. exists j, (d ++ [Hier i c]), (Hier i c). split; [now left|]. split; [apply in_or_app; right; now left|]. econstructor; eauto.
  - injection I as <- <-. exists j, (d ++ [Hier i c]), g. split; [now left|]. split; [apply in_or_app; now left|exact S].
  - exists k', c', g. split; [now right|now split].
Qed.
Lemma finish_under s s' x top b d rest : finish s = Some s' -> s = x :: top ++ (b, d) :: rest -> exists top' d', s' = top' ++ (b, d ++ d') :: rest /\ length top' = length top.
Proof.
  intros F ->. destruct x as [i c]. destruct top as [|[j e] top]; cbn in F; injection F as <-; [exists [], [Hier i c]; now split|]. exists ((j, e ++ [Hier i c]) :: top), []. cbn. rewrite app_nil_r. now split.
Qed.
Lemma finish_n_calm n : forall s s' top b d rest, finish_n n s = Some s' -> s = top ++ (b, d) :: rest -> n <= length top -> exists top' d', s' = top' ++ (b, d ++ d') :: rest /\ length top' + n = length top.
Proof.
  induction n as [|n IH]; intros s s' top b d rest F E L; cbn [finish_n] in F; [injection F as <-; exists top, []; rewrite app_nil_r; split; [exact E|lia]|].
  destruct (finish s) as [s1|] eqn:F1; [|discriminate]. destruct top as [|x top]; [cbn in L; lia|]. destruct (finish_under s s1 x top b d rest F1 E) as (t1 & d1 & E1 & L1). cbn in L. destruct (IH s1 s' t1 b (d ++ d1) rest F E1) as (t2 & d2 & E2 & L2); [lia|].
  exists t2, (d1 ++ d2). rewrite app_assoc. cbn. split; [exact E2|lia].
Qed.
Lemma finish_n_persists n : forall s s', finish_n n s = Some s' -> persists s s'.
Proof.
  induction n as [|n IH]; intros s s' F; cbn [finish_n] in F; [injection F as <-; apply calm_refl|]. destruct (finish s) as [s1|] eqn:F1; [|discriminate]. intros i d K O. apply (IH s1 s' F); [exact K|]. now apply (finish_persists s s1 F1).
Qed.
(** Closing what was opened since [s]. *)
Lemma finish_to_calm h s s1 s2 : length s + 1 <= h -> calm s s1 -> finish_to h s1 = Some s2 -> calm s s2.
Proof.
  intros L [U P] F. split.
  - intros top b d rest E K. destruct (U top b d rest E K) as (t1 & d1 & E1). assert (LS : length s = length top + S (length rest)) by (rewrite E, app_length; reflexivity). assert (LS1 : length s1 = length t1 + S (length rest)) by (rewrite E1, app_length; reflexivity).
    destruct (finish_n_calm _ _ _ _ _ _ _ F E1) as (t2 & d2 & E2 & _); [lia|]. exists t2, (d1 ++ d2). now rewrite app_assoc.
  - intros i d K O. apply (finish_n_persists _ _ _ F); auto.
Qed.
Lemma pop_calm fuel level : calm_step (pop_heading fuel level).
Proof.
  induction fuel as [|fuel IH]; intros s s' N F; cbn [pop_heading] in F; [injection F as <-; apply calm_refl|]. destruct s as [|[w c] r]; [congruence|].
  destruct (match i_kind w with LRoot => true | LHeading l => l <? level | LBlock => true | _ => false end || _) eqn:B; [injection F as <-; apply calm_refl|]. destruct (finish ((w, c) :: r)) as [s1|] eqn:F1; [|discriminate].
  apply (calm_trans _ s1); [|apply (IH s1 s'); [|exact F]; cbn in F1; destruct r as [|[]]; [discriminate|injection F1 as <-; discriminate]]. split; [|now apply finish_persists].
  intros top b d rest E K. destruct top as [|x top]; [|destruct (finish_under _ _ x top b d rest F1 E) as (t & d' & E' & _); now exists t, d']. cbn in E. injection E as -> -> ->. rewrite (K : i_kind b = LBlock) in B. discriminate.
Qed.
Lemma nodes_calm l : forall nl cr, Forall (fun x => calm_step (snd x)) l -> (forall x s s', In x l -> s <> [] -> snd x s = Some s' -> s' <> []) -> calm_step (check_nodes l nl cr).
Proof.
  induction l as [|[n f] l IH]; intros nl cr A NE s s' N F; cbn [check_nodes] in F; [injection F as <-; apply calm_refl|]. apply Forall_cons_iff in A as [A1 A2].
  assert (NE' : forall x s s', In x l -> s <> [] -> snd x s = Some s' -> s' <> []) by (intros x t t' I; apply NE; now right).
  destruct (process n nl) as [[] nl']; [eapply IH; eauto..|]. set (s1 := match cr with Some r => (comment_info r, []) :: s | None => s end) in *.
  assert (C1 : calm s s1 /\ s1 <> []) by (unfold s1; destruct cr; [split; [apply calm_push|discriminate]|split; [apply calm_refl|exact N]]). destruct C1 as [C1 N1]. clearbody s1. apply (calm_trans _ s1 _ C1). destruct (is_plain n); [eapply IH; eauto|].
  destruct (f s1) as [s2|] eqn:F2; [|discriminate]. apply (calm_trans _ s2); [now apply A1|]. eapply IH; eauto. apply (NE (n, f) s1); auto. now left.
Qed.
Lemma seq_calm f g : calm_step f -> (forall s s', s <> [] -> f s = Some s' -> s' <> []) -> calm_step g -> calm_step (fun s => seq_ (f s) g).
Proof. intros A NE B s s' N F. destruct (f s) as [s1|] eqn:F1; [|discriminate]. cbn [seq_] in F. apply (calm_trans _ s1); [now apply A|]. apply B; [now apply (NE s)|exact F]. Qed.
Lemma skip_calm : calm_step (fun s => Some s).
Proof. intros s s' _ E. injection E as <-. apply calm_refl. Qed.
Lemma step_nonempty f l s s' : step_ok f l -> s <> [] -> f s = Some s' -> s' <> [].
Proof. intros A N F. destruct (A s N) as (s1 & E & K). rewrite F in E. injection E as ->. apply K. Qed.
Lemma node_nonempty m par n c s s' : s <> [] -> check_node m par n c s = Some s' -> s' <> [].
Proof. apply step_nonempty with (l := finds m par n c). apply check_good. Qed.
Section Calm.
Variables (m : mode) (k : skind) (cs : list node).
Hypothesis G : Forall (fun n => forall par c, calm_step (check_node m par n c)) cs.
Lemma opt_calm p c ds : (forall x, In x ds -> In x cs) -> calm_step (check_opt (find (fun x => p (fst x)) (map (fun x => (x, check_node m (Some k) x)) ds)) c).
Proof. intros I. rewrite find_pair. destruct (find p ds) as [x|] eqn:E; cbn [option_map check_opt]; [|apply skip_calm]. apply find_some in E as [E _]. rewrite Forall_forall in G. apply (G x (I x E)). Qed.
Lemma first_calm ds after : (forall x, In x ds -> In x cs) -> calm_step (check_first (map (fun x => (x, check_node m (Some k) x)) ds) after).
Proof.
  intros I. unfold check_first. rewrite find_pair. destruct (find is_expr ds) as [x|] eqn:E; cbn [option_map]; [|apply skip_calm]. apply find_some in E as [E _]. destruct (match after with Some _ => _ | None => _ end); [apply skip_calm|].
  rewrite Forall_forall in G. apply (G x (I x E)).
Qed.
Lemma all_calm c : calm_step (check_nodes (map (fun x => (fst x, snd x c)) (map (fun x => (x, check_node m (Some k) x)) cs)) 0 None).
Proof.
  apply nodes_calm.
  - rewrite map_map. cbn [fst snd]. apply Forall_forall. intros y I. apply in_map_iff in I as (x & <- & I). cbn [snd]. rewrite Forall_forall in G. now apply G.
  - intros y s s' I. rewrite map_map in I. apply in_map_iff in I as (x & <- & I). cbn [snd]. apply node_nonempty.
Qed.
Lemma opt_nonempty p c ds s s' : s <> [] -> check_opt (find (fun x => p (fst x)) (map (fun x => (x, check_node m (Some k) x)) ds)) c s = Some s' -> s' <> [].
Proof. rewrite find_pair. destruct (find p ds); cbn [option_map check_opt]; [apply node_nonempty|]. intros N E. now injection E as <-. Qed.
Lemma first_nonempty ds after s s' : s <> [] -> check_first (map (fun x => (x, check_node m (Some k) x)) ds) after s = Some s' -> s' <> [].
Proof.
  unfold check_first. rewrite find_pair. destruct (find is_expr ds); cbn [option_map]; [|intros N E; now injection E as <-]. destruct (match after with Some _ => _ | None => _ end); [intros N E; now injection E as <-|apply node_nonempty].
Qed.
End Calm.
Lemma own_calm s i f h s' : calm_step f -> length s + 1 <= h -> seq_ (f ((i, []) :: s)) (finish_to h) = Some s' -> calm s s'.
Proof.
  intros C L F. destruct (f ((i, []) :: s)) as [s1|] eqn:F1; [|discriminate]. cbn [seq_] in F. apply (finish_to_calm h s s1 s' L); [|exact F]. apply (calm_trans _ _ _ (calm_push s i)). apply C; [discriminate|exact F1].
Qed.
Lemma closure_calm m cs : Forall (fun n => forall par c, calm_step (check_node m par n c)) cs -> forall r w ch below s',
  (let rs := map (fun x => (x, check_node m (Some KClosure) x)) cs in
   seq_ (match hd_error rs with Some x => if is_ident (fst x) then snd x CFunc ((w, ch) :: below) else Some ((w, ch) :: below) | None => Some ((w, ch) :: below) end) (fun s =>
     match find (fun x => is_expr (fst x)) (rev rs) with
     | None => Some s
     | Some (_, f) =>
         match s with
         | [] => None
         | (w, children) :: below =>
             match (if length ch =? length children then Some (mkInfo 1 LFunction r, s)
                    else match rev children with [] => None | Hier i _ :: init => Some (mkInfo (i_name i) (i_kind i) r, (w, rev init) :: below) end) with
             | None => None
             | Some (i, s) => let s := (i, []) :: s in seq_ (f CRef s) (finish_to (length s))
             end
         end
     end)) = Some s' -> calm ((w, ch) :: below) s'.
Proof.
  intros G r w ch below s'. cbv zeta. rewrite <- !map_rev, !find_pair.
  assert (BODY : forall x, find is_expr (rev cs) = Some x -> forall par c, calm_step (check_node m par x c)). { intros x E. apply find_some in E as [E _]. apply in_rev in E. rewrite Forall_forall in G. now apply G. }
  assert (LEN : length ((w, ch) :: below) + 1 = S (S (length below))) by (cbn; lia).
  assert (ANON : match option_map (fun x => (x, check_node m (Some KClosure) x)) (find is_expr (rev cs)) with
     | None => Some ((w, ch) :: below)
     | Some (_, f) => match (if length ch =? length ch then Some (mkInfo 1 LFunction r, (w, ch) :: below)
                    else match rev ch with [] => None | Hier i _ :: init => Some (mkInfo (i_name i) (i_kind i) r, (w, rev init) :: below) end) with
             | None => None
             | Some (i, s) => let s := (i, []) :: s in seq_ (f CRef s) (finish_to (length s)) end end = Some s' -> calm ((w, ch) :: below) s').
  { destruct (find is_expr (rev cs)) as [x|] eqn:E; cbn [option_map]; [|intros X; injection X as <-; apply calm_refl]. rewrite Nat.eqb_refl. cbv zeta. apply own_calm; [apply (BODY x eq_refl)|cbn; lia]. }
  destruct cs as [|[nm r'|k' r' e' p' cs'] cs0]; [exact ANON| |exact ANON]. destruct m; [|exact ANON]. clear ANON. cbn [map hd_error fst snd is_ident check_node get_ident].
  assert (F : finish_to (length ((w, ch) :: below) + 1) ((mkInfo nm LFunction r', []) :: (w, ch) :: below) = Some ((w, ch ++ [Hier (mkInfo nm LFunction r') []]) :: below)).
  { unfold finish_to. cbn [length]. replace (S (S (length below)) + 1 - (S (length below) + 1)) with 1 by lia. reflexivity. }
  rewrite F. cbn [seq_]. destruct (find is_expr (rev (Ident nm r' :: cs0))) as [x|] eqn:E; cbn [option_map].
  - rewrite app_length. cbn [length]. rewrite (proj2 (Nat.eqb_neq _ _)) by lia. rewrite rev_app_distr. cbn [rev app]. rewrite rev_involutive. cbn [i_name i_kind]. cbv zeta. apply own_calm; [apply (BODY x eq_refl)|cbn; lia].
  - intros X. injection X as <-. apply (finish_to_calm _ _ _ _ (le_n _) (calm_push _ _) F).
Qed.
Lemma check_calm m n : forall par c, calm_step (check_node m par n c).
Proof.
  induction n as [n r|k r e p cs G] using node_ind2; intros par c s s' N F.
  { cbn [check_node] in F. destruct (get_ident m par c (Ident n r)) as [i|]; [|injection F as <-; apply calm_refl]. apply (finish_to_calm _ _ _ _ (le_n _) (calm_push s i) F). }
  cbn [check_node] in F. pose proof (all_calm m k cs G (enter k c)) as NODES.
  set (nodes := check_nodes (map (fun x => (fst x, snd x (enter k c))) (map (fun x => (x, check_node m (Some k) x)) cs)) 0 None) in *.
  assert (REV : forall x, In x (rev cs) -> In x cs) by (intros x X; now apply in_rev).
  destruct (get_ident m par c (Node k r e p cs)) as [i|] eqn:GI.
  - assert (PL : seq_ (match k with KImport => Some ((i, []) :: s) | _ => nodes ((i, []) :: s) end) (finish_to (length ((i, []) :: s))) = Some s' -> calm s s').
    { destruct k; try (apply own_calm; [exact NODES|cbn; lia]). apply (own_calm s i (fun s => Some s)); [apply skip_calm|cbn; lia]. }
    destruct (i_kind i); try (apply PL; exact F). destruct (pop_heading (length s) level s) as [s0|] eqn:P; [|discriminate]. cbn [seq_] in F. apply (calm_trans _ s0); [now apply (pop_calm (length s) level)|]. apply (own_calm s0 i nodes (length ((i, []) :: s0) + 1)); [exact NODES|cbn; lia|exact F].
  - destruct k; try (apply (NODES s s' N F)); try (injection F as <-; apply calm_refl).
    + rewrite <- map_rev in F. set (pat := find (fun x => is_pat (fst x)) (map (fun x => (x, check_node m (Some KLet) x)) cs)) in *.
      assert (C1 : forall c, calm_step (check_opt pat c)) by (intros c'; apply (opt_calm m KLet cs G is_pat); auto).
      destruct (match pat with Some x => is_closure (fst x) | None => false end); [now apply (C1 CRef)|]. revert F. apply (seq_calm (check_opt pat CVar)); [apply C1|intros t t'; apply (opt_nonempty m KLet is_pat)|apply (first_calm m KLet cs); auto|exact N].
    + destruct s as [|[w ch] below]; [congruence|]. apply (closure_calm m cs G r w ch below s' F).
    + rewrite <- map_rev in F. rewrite (skip_pair _ _ _ (fun x => negb (is_in x))) in F. set (ds := skip_while _ cs) in *. assert (DS : forall x, In x ds -> In x cs) by (intros x; apply skip_incl).
      revert F. apply (seq_calm (check_opt _ CRef) (fun s => seq_ (check_opt _ CVar s) _)); [now apply (opt_calm m KFor cs G is_expr)|intros t t'; apply (opt_nonempty m KFor is_expr)| |exact N].
      apply seq_calm; [now apply (opt_calm m KFor cs G is_pat)|intros t t'; apply (opt_nonempty m KFor is_pat)|]. now apply (first_calm m KFor cs).
    + revert F. apply (first_calm m KField cs); auto.
    + rewrite <- map_rev in F. revert F. apply (seq_calm (check_first _ None)); [apply (first_calm m KNamed cs); auto|intros t t'; apply (first_nonempty m KNamed)| |exact N]. destruct (enter KNamed c); try apply skip_calm. apply (opt_calm m KNamed cs G is_ident); auto.
Qed.
(** A block gets exactly what is found inside it. *)
Definition block_kind (m : mode) (k : skind) : Prop := k = KItem \/ (m = Braced /\ k = KBraced).
Lemma block_made m par k r e p cs s s' : block_kind m k -> s <> [] -> check_node m par (Node k r e p cs) CRef s = Some s' ->
  exists d, occ (Hier (mkInfo 0 LBlock r) d) s' /\ flat_map infos d = found_nodes (map (fun x => (x, finds m (Some k) x CRef)) cs) 0 None.
Proof.
  intros BK N F. set (i := mkInfo 0 LBlock r). assert (GI : get_ident m par CRef (Node k r e p cs) = Some i) by (destruct BK as [-> |[-> ->]]; reflexivity). assert (KE : enter k CRef = CRef) by (destruct BK as [-> |[_ ->]]; reflexivity).
  destruct (check_good m (Node k r e p cs) par CRef s N) as (s2 & F2 & K). rewrite F in F2. injection F2 as <-. destruct K as (_ & FL & _). cbn [finds] in FL. cbn [check_node] in F. rewrite GI in F, FL. cbn [i_kind i] in F. rewrite KE in F, FL.
  set (nodes := check_nodes (map (fun x => (fst x, snd x CRef)) (map (fun x => (x, check_node m (Some k) x)) cs)) 0 None) in *.
  replace (match k with KImport => [] | _ => found_nodes (map (fun x => (fst x, snd x CRef)) (map (fun x => (x, finds m (Some k) x)) cs)) 0 None end) with (found_nodes (map (fun x => (x, finds m (Some k) x CRef)) cs) 0 None) in FL by (rewrite map_map; destruct BK as [-> |[_ ->]]; reflexivity).
  assert (F1 : seq_ (nodes ((i, []) :: s)) (finish_to (length ((i, []) :: s))) = Some s') by (destruct BK as [-> |[_ ->]]; exact F). clear F. unfold i in F1.
  assert (NODES : calm_step nodes) by (apply (all_calm m k cs); apply Forall_forall; intros x _; apply check_calm).
  destruct (nodes ((i, []) :: s)) as [s1|] eqn:FN; unfold i in FN; rewrite FN in F1; [|discriminate]. cbn [seq_] in F1. fold i in FN. destruct (NODES ((i, []) :: s) s1) as [U _]; [discriminate|exact FN|].
  destruct (U [] i [] s eq_refl eq_refl) as (top & d & E). cbn [app] in E.
  assert (LS : length s1 = length top + S (length s)) by (rewrite E, app_length; reflexivity). unfold finish_to in F1. cbn [length] in F1. replace (length s1 + 1 - S (length s)) with (length top + 1) in F1 by lia.
  assert (FA : forall n q t, finish_n (n + 1) t = Some q -> exists t', finish_n n t = Some t' /\ finish t' = Some q).
  { clear. induction n as [|n IH]; intros q t F; cbn [finish_n Nat.add] in *; [exists t; split; [reflexivity|]; destruct (finish t); [exact F|discriminate]|]. destruct (finish t) as [t1|]; [|discriminate]. now apply IH. }
  destruct (FA _ _ _ F1) as (t' & T1 & T2). destruct (finish_n_calm _ _ _ _ _ _ _ T1 E (le_n _)) as (t2 & d2 & E2 & L2). destruct t2 as [|? ?]; [|cbn in L2; lia]. cbn [app] in E2. subst t'.
  destruct s as [|[j ej] rs]; [congruence|]. cbn in T2. injection T2 as <-. exists (d ++ d2). split.
  - exists j, (ej ++ [Hier i (d ++ d2)]), (Hier i (d ++ d2)). split; [now left|]. split; [apply in_or_app; right; now left|constructor].
  - cbn [flat] in FL. rewrite flat_map_app in FL. cbn [flat_map infos] in FL. rewrite app_nil_r in FL. rewrite <- app_assoc in FL. apply app_inv_head in FL. cbn [app] in FL. injection FL as FL. apply app_inv_head in FL. injection FL as FL. exact FL.
Qed.
Lemma nodes_block m k cs y (Q : stack -> Prop) : In y cs -> is_plain y = false -> (forall s s', s <> [] -> check_node m (Some k) y CRef s = Some s' -> Q s') -> (forall s s', s <> [] -> calm s s' -> Q s -> Q s') ->
  forall nl cr s s', s <> [] -> check_nodes (map (fun x => (x, check_node m (Some k) x CRef)) cs) nl cr s = Some s' -> Q s'.
Proof.
  intros I PL QY QP. induction cs as [|x cs IH]; [destruct I|]. intros nl cr s s' N F. cbn [map check_nodes] in F.
  assert (REST : forall nl cr t, t <> [] -> check_nodes (map (fun x => (x, check_node m (Some k) x CRef)) cs) nl cr t = Some s' -> calm t s').
  { intros nl0 cr0 t NT FT. refine (nodes_calm _ nl0 cr0 _ _ t s' NT FT); [apply Forall_forall|]; intros z; [|intros t1 t2]; intros I1; apply in_map_iff in I1 as (w & <- & _); cbn [snd]; [apply check_calm|apply node_nonempty]. }
  destruct I as [->|I].
  - assert (E : process y nl = (SgBreak, 0)) by (destruct y as [|[]]; try discriminate; reflexivity). rewrite E, PL in F. set (s1 := match cr with Some r => (comment_info r, []) :: s | None => s end) in *. assert (N1 : s1 <> []) by (unfold s1; destruct cr; [discriminate|exact N]). clearbody s1.
    destruct (check_node m (Some k) y CRef s1) as [s2|] eqn:F2; [|discriminate]. assert (N2 : s2 <> []) by (eapply node_nonempty; eauto). apply (QP s2); [exact N2|now apply (REST 0 None)|now apply (QY s1)].
  - specialize (IH I). destruct (process x nl) as [[] nl']; [eapply IH; eauto..|]. set (s1 := match cr with Some r => (comment_info r, []) :: s | None => s end) in *. assert (N1 : s1 <> []) by (unfold s1; destruct cr; [discriminate|exact N]). clearbody s1.
    destruct (is_plain x); [eapply IH; eauto|]. destruct (check_node m (Some k) x CRef s1) as [s2|] eqn:F2; [|discriminate]. eapply IH; [|exact F]. eapply node_nonempty; eauto.
Qed.
Lemma inside_block m par n par' y : inside par n par' y -> forall i d0 , isblock i -> (forall s s', s <> [] -> check_node m par' y CRef s = Some s' -> exists d, occ (Hier i d) s' /\ flat_map infos d = d0) ->
  forall s s', s <> [] -> check_node m par n CRef s = Some s' -> exists d, occ (Hier i d) s' /\ flat_map infos d = d0.
Proof.
  induction 1 as [par n|par k r e p cs x par' y T I P _ IH]; intros i d0 B H s s' N F; [now apply (H s)|]. specialize (IH i d0 B H). set (Q := fun s' => exists d, occ (Hier i d) s' /\ flat_map infos d = d0).
  assert (QP : forall s s', s <> [] -> calm s s' -> Q s -> Q s') by (intros t t' _ [_ PE] (d & O & E); exists d; split; [now apply PE|exact E]).
  assert (KE : enter k CRef = CRef) by (destruct k; try discriminate T; reflexivity). cbn [check_node] in F. rewrite KE, map_map in F. cbn [fst snd] in F.
  set (nodes := check_nodes (map (fun x => (x, check_node m (Some k) x CRef)) cs) 0 None) in *.
  assert (QN : forall s s', s <> [] -> nodes s = Some s' -> Q s') by (intros t t'; apply (nodes_block m k cs x Q I P); [exact IH|exact QP]).
  assert (FIN : forall h t t', Q t -> finish_to h t = Some t' -> Q t') by (intros h t t' (d & O & E) FT; exists d; split; [now apply (finish_n_persists _ _ _ FT)|exact E]).
  destruct (get_ident m par CRef (Node k r e p cs)) as [j|].
  - assert (PL : forall t h, seq_ (nodes ((j, []) :: t)) (finish_to h) = Some s' -> Q s'). { intros t h FT. destruct (nodes ((j, []) :: t)) as [t1|] eqn:FN; [|discriminate]. cbn [seq_] in FT. apply (FIN h t1); [|exact FT]. apply (QN ((j, []) :: t)); [discriminate|exact FN]. }
    assert (PL' : seq_ (match k with KImport => Some ((j, []) :: s) | _ => nodes ((j, []) :: s) end) (finish_to (length ((j, []) :: s))) = Some s' -> Q s') by (destruct k; try discriminate T; apply PL).
    destruct (i_kind j); try (apply PL'; exact F). destruct (pop_heading _ _ s) as [s0|]; [|discriminate]. cbn [seq_] in F. now apply (PL s0 (length ((j, []) :: s0) + 1)).
  - destruct k; try discriminate T; now apply (QN s).
Qed.
Theorem blocks m root par k r e p cs : inside None root par (Node k r e p cs) -> block_kind m k -> exists hs h d, get_lexical_hierarchy m root = Some hs /\ In h hs /\ sub (Hier (mkInfo 0 LBlock r) d) h /\
  flat_map infos d = found_nodes (map (fun x => (x, finds m (Some k) x CRef)) cs) 0 None.
Proof.
  intros I BK. destruct (hierarchy_total m root) as (hs & E & _ & _). exists hs. rewrite E. unfold get_lexical_hierarchy in E. destruct (check_node m None root CRef _) as [s|] eqn:F; [|discriminate].
  destruct (inside_block m None root par _ I (mkInfo 0 LBlock r) (found_nodes (map (fun x => (x, finds m (Some k) x CRef)) cs) 0 None) eq_refl) with (s := [(mkInfo 0 LRoot (0, 0), @nil hier)]) (s' := s) as (d & O & FL); [intros t t' N C; now apply (block_made m par k r e p cs t t')|discriminate|exact F|].
  destruct (finish_to 2 s) as [t|] eqn:FT; [|discriminate]. destruct t as [|[j cs'] [|]]; try discriminate. injection E as ->. pose proof (finish_n_persists _ _ _ FT (mkInfo 0 LBlock r) d eq_refl O) as (j' & c & g & [J|[]] & IG & S). injection J as <- <-.
  exists g, d. repeat split; auto.
Qed.
