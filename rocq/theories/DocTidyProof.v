(** Proofs about the reading off of parameters, and about fences. *)
From Coq Require Import List Arith NArith Bool Lia.
From Verif Require Import DocModel DocSpec DocProof.
Import ListNotations.

(** * Lines *)

Lemma rev_nil_inv (s : text) : rev s = [] -> s = [].
Proof. intros H. rewrite <- (rev_involutive s), H. auto. Qed.

Lemma lines_sound : forall s cur, ~ In NL cur -> in_lines (rev cur ++ s) (lines_acc cur s).
Proof.
  induction s as [|c s IH]; intros cur Hc; cbn.
  - rewrite app_nil_r. destruct cur as [|x cur].
    + constructor.
    + apply in_lines_last.
      * intros H. apply rev_nil_inv in H. discriminate.
      * intros H. apply Hc. apply in_rev. auto.
  - destruct (N.eqb_spec c NL) as [->|Hn].
    + specialize (IH [] (fun x => x)). destruct cur as [|x cur].
      * apply in_lines_lf; auto. intros u E. destruct u; discriminate.
      * destruct (N.eqb_spec x CR) as [->|Hx].
        -- cbn. rewrite <- app_assoc. apply in_lines_crlf; auto. intros H. apply Hc. right. apply in_rev. auto.
        -- apply in_lines_lf; auto.
           ++ intros H. apply Hc, in_rev. auto.
           ++ intros u E. cbn in E. apply app_inj_tail in E. destruct E as (_ & E). congruence.
    + specialize (IH (c :: cur)). cbn in IH. rewrite <- app_assoc in IH. apply IH. intros [E|H]; auto.
Qed.
Lemma lines_acc_app : forall s cur t, ~ In NL s -> lines_acc cur (s ++ t) = lines_acc (rev s ++ cur) t.
Proof.
  induction s as [|c s IH]; intros cur t Hs; auto. cbn. destruct (N.eqb_spec c NL) as [->|Hn].
  - exfalso. apply Hs. left; auto.
  - rewrite IH by (intros H; apply Hs; right; auto). rewrite <- app_assoc. auto.
Qed.
Lemma lines_complete s l : in_lines s l -> lines s = l.
Proof.
  unfold lines. induction 1 as [|s Hs Hn|s t l Hn Hc H IH|s t l Hn H IH]; auto.
  - rewrite <- (app_nil_r s) at 1. rewrite lines_acc_app by auto. cbn. rewrite app_nil_r. destruct (rev s) as [|x r] eqn:E.
    + apply rev_nil_inv in E. congruence.
    + rewrite <- E, rev_involutive. auto.
  - rewrite lines_acc_app by auto. cbn. rewrite app_nil_r, IH. f_equal. destruct (rev s) as [|x r] eqn:E.
    + apply rev_nil_inv in E. subst. auto.
    + destruct (N.eqb_spec x CR) as [->|Hx].
      * exfalso. apply (Hc (rev r)). rewrite <- (rev_involutive s), E. auto.
      * rewrite <- E, rev_involutive. auto.
  - replace (s ++ CR :: NL :: t) with ((s ++ [CR]) ++ NL :: t) by (rewrite <- app_assoc; auto). rewrite lines_acc_app.
    + cbn. rewrite app_nil_r, rev_app_distr, IH. cbn. rewrite rev_involutive. auto.
    + rewrite in_app_iff. intros [H'|[H'|[]]]; auto. discriminate.
Qed.
Lemma lines_ok s : in_lines s (lines s).
Proof. apply (lines_sound s []). auto. Qed.

(** * One item *)

Lemma begins_ok k s t : begins k s = Some t <-> opens k s t.
Proof.
  unfold begins, opens. split.
  - destruct (strip_prefix [MINUS; SP] (trim_start s)) as [u|] eqn:E; [|discriminate]. apply strip_prefix_ok in E. intros H. apply strip_prefix_ok in H.
    exists u. split; [apply trim_start_ok|apply trim_ok]; auto.
  - intros (u & H1 & H2). apply trim_start_ok in H1. apply trim_ok in H2. rewrite H1, (proj2 (strip_prefix_ok _ _ u) eq_refl), H2. apply strip_prefix_ok. auto.
Qed.
Lemma begins_no k s : begins k s = None <-> forall t, ~ opens k s t.
Proof.
  split.
  - intros H t Ht. apply begins_ok in Ht. congruence.
  - intros H. destruct (begins k s) as [t|] eqn:E; auto. apply begins_ok in E. exfalso. eapply H; eauto.
Qed.
Lemma closes_ok k s t : strip_suffix (end_ k) (trim_end s) = Some t <-> closes k s t.
Proof. unfold closes. rewrite strip_suffix_ok, <- trim_end_ok. tauto. Qed.

Lemma split_ok c : forall s a b, split_once c s = Some (a, b) <-> s = a ++ c :: b /\ ~ In c a.
Proof.
  induction s as [|x s IH]; intros a b; cbn.
  - split; [discriminate|]. intros (E & _). destruct a; discriminate.
  - destruct (N.eqb_spec x c) as [->|Hn].
    + split.
      * intros E. injection E as <- <-. auto.
      * intros (E & Ha). destruct a as [|y a]; cbn in E; [injection E as ->; auto|]. injection E as -> _. exfalso. apply Ha. left; auto.
    + split.
      * destruct (split_once c s) as [(a', b')|] eqn:E; [|discriminate]. intros H. injection H as <- <-. destruct (proj1 (IH a' b') eq_refl) as (-> & Ha).
        split; auto. intros [H|H]; auto.
      * intros (E & Ha). destruct a as [|y a]; cbn in E; [injection E as -> _; congruence|]. injection E as -> ->.
        rewrite (proj2 (IH a b)); auto. split; auto. intros H. apply Ha. right; auto.
Qed.

(** What is before the bracket that closes the [n]-th of those open. *)
Inductive closed : nat -> text -> Prop :=
| closed_one a : even a -> closed 1 a
| closed_more n a b : even a -> closed (S n) b -> closed (S (S n)) (a ++ CLOSE :: b).
Lemma closed_char c n a : c <> OPEN -> c <> CLOSE -> closed (S n) a -> closed (S n) (c :: a).
Proof.
  intros H1 H2 H. inversion H; subst.
  - constructor. constructor; auto.
  - change (c :: a0 ++ CLOSE :: b) with ((c :: a0) ++ CLOSE :: b). constructor; auto. constructor; auto.
Qed.
Lemma even_ind_close : forall n a, closed (S (S n)) a -> closed (S n) (OPEN :: a).
Proof.
  intros n a H. inversion H as [|n' a0 b Ha Hb]; subst. inversion Hb as [a1 Ha1|n' a1 b0 Ha1 Hb0]; subst.
  - constructor. apply even_pair; auto.
  - replace (OPEN :: a0 ++ CLOSE :: a1 ++ CLOSE :: b0) with ((OPEN :: a0 ++ CLOSE :: a1) ++ CLOSE :: b0) by (cbn; rewrite <- app_assoc; auto).
    constructor; auto. apply even_pair; auto.
Qed.
Lemma brace_sound : forall s n a r, match_brace (S n) s = Some (a, r) -> exists r', r = CLOSE :: r' /\ s = a ++ r /\ closed (S n) a.
Proof.
  induction s as [|c s IH]; intros n a r E; cbn [match_brace] in E; [discriminate|].
  destruct (N.eqb_spec c OPEN) as [->|Ho].
  - cbn [Nat.eqb] in E. destruct (match_brace (S (S n)) s) as [(a', b')|] eqn:Eb; [|discriminate]. injection E as <- <-.
    apply IH in Eb. destruct Eb as (r' & H1 & -> & H3). exists r'. split; auto. split; auto. apply even_ind_close. auto.
  - destruct (N.eqb_spec c CLOSE) as [->|Hc].
    + cbn [pred] in E. destruct n as [|n]; cbn [Nat.eqb] in E.
      * injection E as <- <-. exists s. split; auto. split; auto. constructor. constructor.
      * destruct (match_brace (S n) s) as [(a', b')|] eqn:Eb; [|discriminate]. injection E as <- <-.
        apply IH in Eb. destruct Eb as (r' & H1 & -> & H3). exists r'. split; auto. split; auto.
        change (CLOSE :: a') with ([] ++ CLOSE :: a'). constructor; auto. constructor.
    + cbn [Nat.eqb] in E. destruct (match_brace (S n) s) as [(a', b')|] eqn:Eb; [|discriminate]. injection E as <- <-.
      apply IH in Eb. destruct Eb as (r' & H1 & -> & H3). exists r'. split; auto. split; auto. apply closed_char; auto.
Qed.
Definition put (a : text) (o : option (text * text)) : option (text * text) := match o with Some (b, r) => Some (a ++ b, r) | None => None end.
Lemma put_put a b o : put a (put b o) = put (a ++ b) o.
Proof. destruct o as [(c, r)|]; cbn; auto. rewrite app_assoc. auto. Qed.
Lemma brace_even : forall a, even a -> forall n s, match_brace (S n) (a ++ s) = put a (match_brace (S n) s).
Proof.
  induction 1 as [|c a Ho Hc Ha IH|a b Ha IHa Hb IHb]; intros n s.
  - cbn [app]. destruct (match_brace (S n) s) as [(b, r)|]; auto.
  - cbn [app match_brace]. destruct (N.eqb_spec c OPEN); [contradiction|]. destruct (N.eqb_spec c CLOSE); [contradiction|]. cbn [Nat.eqb].
    rewrite IH. destruct (match_brace (S n) s) as [(b, r)|]; auto.
  - cbn [app]. rewrite <- app_assoc. cbn [app match_brace]. rewrite N.eqb_refl. cbn [Nat.eqb]. rewrite IHa. cbn [match_brace].
    change (N.eqb CLOSE OPEN) with false. rewrite N.eqb_refl. cbn [pred Nat.eqb]. rewrite IHb.
    destruct (match_brace (S n) s) as [(d, r)|]; auto. cbn. rewrite <- app_assoc. auto.
Qed.
Lemma brace_ok s a r : match_brace 1 s = Some (a, r) <-> exists r', r = CLOSE :: r' /\ s = a ++ CLOSE :: r' /\ even a.
Proof.
  split.
  - intros H. apply brace_sound in H. destruct H as (r' & -> & -> & H). exists r'. split; auto. split; auto. inversion H; auto.
  - intros (r' & -> & -> & H). rewrite brace_even by auto. cbn [match_brace]. change (N.eqb CLOSE OPEN) with false. rewrite N.eqb_refl. cbn. rewrite app_nil_r. auto.
Qed.

Lemma read_ok first more p : read_param (first :: more) = Some p <->
  exists name types docs, heads first name types docs /\ p = {| p_name := name; p_types := types; p_docs := join (docs :: more) |}.
Proof.
  unfold read_param, heads. split.
  - destruct (split_once SP (trim first)) as [(name, rest)|] eqn:E1; [|discriminate].
    destruct (strip_prefix [OPEN] (trim_start rest)) as [rest'|] eqn:E2; [|discriminate].
    destruct (match_brace 1 rest') as [(types, rest2)|] eqn:E3; [|discriminate].
    destruct (split_once COLON rest2) as [(gap, tail)|] eqn:E4; [|discriminate]. intros H. injection H as <-.
    apply split_ok in E1. destruct E1 as (E1 & Hn). apply strip_prefix_ok in E2. apply trim_start_ok in E2. destruct E2 as (w & E2 & Hw & _).
    apply brace_ok in E3. destruct E3 as (r' & -> & E3 & He). apply split_ok in E4. destruct E4 as (E4 & Hc).
    destruct gap as [|g gap]; cbn in E4; [discriminate|]. injection E4 as <- E4.
    exists name, types, (trim tail). split; auto. exists (trim first), rest, w, rest', gap, tail.
    split; [apply trim_ok; auto|]. split; auto. split; auto. split; auto. split; auto. split; [rewrite E3, E4; auto|]. split; auto. split; [intros H; apply Hc; right; auto|]. apply trim_ok. auto.
  - intros (name & types & docs & (s' & rest & w & rest' & gap & tail & H1 & H2 & H3 & H4 & H5 & H6 & H7 & H8 & H9) & ->).
    apply trim_ok in H1. apply trim_ok in H9. rewrite H1. rewrite (proj2 (split_ok SP s' name rest) (conj H2 H3)).
    assert (E : trim_start rest = OPEN :: rest').
    { apply trim_start_ok. exists w. split; auto. split; auto. intros c u E. injection E as <- _. unfold blank, OPEN. lia. }
    rewrite E. cbn [strip_prefix]. rewrite N.eqb_refl. rewrite (proj2 (brace_ok rest' types (CLOSE :: gap ++ COLON :: tail))) by eauto.
    assert (E4 : split_once COLON (CLOSE :: gap ++ COLON :: tail) = Some (CLOSE :: gap, tail)).
    { apply split_ok. split; auto. intros [H|H]; auto. discriminate. }
    rewrite E4, H9. auto.
Qed.

Lemma find_here k l t above buf : begins k l = Some t -> find_begin k l above buf = Some (t :: buf, above).
Proof. intros H. destruct above; cbn; rewrite H; auto. Qed.
Lemma find_more k l t above : begins k l = Some t -> forall mid, (forall x, In x mid -> begins k x = None) -> forall e buf, begins k e = None ->
  find_begin k e (rev mid ++ l :: above) buf = Some (t :: mid ++ e :: buf, above).
Proof.
  intros Hl mid. induction mid as [|x mid IH] using rev_ind; intros Hm e buf He.
  - cbn. rewrite He. apply find_here. auto.
  - rewrite rev_app_distr. cbn. rewrite He. rewrite IH.
    + rewrite <- app_assoc. auto.
    + intros y Hy. apply Hm, in_or_app. auto.
    + apply Hm, in_or_app. right; left; auto.
Qed.
Lemma find_sound k : forall above e buf b ab, find_begin k e above buf = Some (b, ab) ->
  (exists t, begins k e = Some t /\ b = t :: buf /\ ab = above) \/
  exists mid l t, above = rev mid ++ l :: ab /\ (forall x, In x mid -> begins k x = None) /\ begins k e = None /\ begins k l = Some t /\ b = t :: mid ++ e :: buf.
Proof.
  induction above as [|y above IH]; intros e buf b ab H; cbn in H; destruct (begins k e) as [t|] eqn:E.
  - injection H as <- <-. left. exists t. auto.
  - discriminate.
  - injection H as <- <-. left. exists t. auto.
  - apply IH in H. right. destruct H as [(t & H1 & -> & ->)|(mid & l & t & -> & H2 & H3 & H4 & ->)].
    + exists [], y, t. split; [auto|]. split; [intros x []|]. auto.
    + exists (mid ++ [y]), l, t. rewrite rev_app_distr, <- app_assoc. split; [auto|]. split; [|rewrite <- app_assoc; auto].
      intros x Hx. apply in_app_iff in Hx. destruct Hx as [Hx|[<-|[]]]; auto.
Qed.

(** One step of the search. *)
Definition step (k : marks) (line : text) (up : list text) : option (param * list text) :=
  match strip_suffix (end_ k) (trim_end line) with
  | None => None
  | Some line' => match find_begin k line' up [] with None => None | Some (buf, above) => match read_param buf with None => None | Some p => Some (p, above) end end
  end.
Lemma step_item k b p above : item k b p -> exists line up, rev b ++ above = line :: up /\ step k line up = Some (p, above).
Proof.
  intros H. destruct H as [l l' t name types docs Hc Ho Hh|l t mid e e' name types docs all Ho Hm Hc He Hh Hl].
  - exists l, above. split; auto. unfold step. apply closes_ok in Hc. rewrite Hc. apply begins_ok in Ho. rewrite (find_here k l' t above [] Ho).
    assert (R : read_param [t] = Some {| p_name := name; p_types := types; p_docs := docs |}) by (apply read_ok; exists name, types, docs; auto).
    rewrite R. auto.
  - exists e, (rev mid ++ l :: above). split.
    + cbn. rewrite rev_app_distr. cbn. rewrite <- app_assoc. auto.
    + unfold step. apply closes_ok in Hc. rewrite Hc. rewrite (find_more k l t above).
      * assert (R : read_param (t :: mid ++ [e']) = Some {| p_name := name; p_types := types; p_docs := all |}).
        { apply read_ok. exists name, types, docs. split; auto. f_equal. apply lined_join. auto. }
        rewrite R. auto.
      * apply begins_ok. auto.
      * intros x Hx. apply begins_no. intros u. apply Hm. auto.
      * apply begins_no. auto.
Qed.
Lemma item_step k line up p above : step k line up = Some (p, above) -> exists b, line :: up = rev b ++ above /\ item k b p.
Proof.
  unfold step. intros H. destruct (strip_suffix (end_ k) (trim_end line)) as [line'|] eqn:E1; [|discriminate]. apply closes_ok in E1.
  destruct (find_begin k line' up []) as [(buf, ab)|] eqn:E2; [|discriminate]. destruct (read_param buf) as [p'|] eqn:E3; [|discriminate]. injection H as -> ->.
  apply find_sound in E2. destruct E2 as [(t & H1 & -> & ->)|(mid & l & t & -> & H2 & H3 & H4 & ->)].
  - apply read_ok in E3. destruct E3 as (name & types & docs & Hh & ->). exists [line]. split; auto. econstructor; eauto. apply begins_ok. auto.
  - apply read_ok in E3. destruct E3 as (name & types & docs & Hh & ->). exists (l :: mid ++ [line]). split.
    + cbn. rewrite rev_app_distr. cbn. rewrite <- app_assoc. auto.
    + econstructor; eauto.
      * apply begins_ok. eauto.
      * intros x u Hx. apply begins_no. auto.
      * apply begins_no. auto.
      * apply lined_join. auto.
Qed.
Lemma item_nonempty k b p : item k b p -> b <> [].
Proof. destruct 1; discriminate. Qed.

(** * The search *)

Inductive items_back (k : marks) : list text -> list param -> Prop :=
| back_nil : items_back k [] []
| back_empty l ps : items_back k l ps -> items_back k (l ++ [[]]) ps
| back_item b p l ps : item k b p -> items_back k l ps -> items_back k (l ++ b) (ps ++ [p]).
Lemma back_app k a pa b pb : items_back k b pb -> items_back k a pa -> items_back k (a ++ b) (pa ++ pb).
Proof.
  induction 1; intros Ha.
  - rewrite !app_nil_r. auto.
  - rewrite app_assoc. constructor; auto.
  - rewrite !app_assoc. constructor; auto.
Qed.
Lemma items_app k a pa b pb : items k a pa -> items k b pb -> items k (a ++ b) (pa ++ pb).
Proof.
  induction 1; intros Hb; cbn; auto.
  - constructor; auto.
  - rewrite <- app_assoc. constructor; auto.
Qed.
Lemma items_back_ok k l ps : items k l ps <-> items_back k l ps.
Proof.
  split.
  - induction 1 as [|l ps H IH|b p l ps Hb H IH].
    + constructor.
    + change ([] :: l) with (([] ++ [[]]) ++ l). change ps with ([] ++ ps). apply back_app; auto. constructor. constructor.
    + change (p :: ps) with ([p] ++ ps). apply back_app; auto. change b with ([] ++ b). change [p] with ([] ++ [p]). constructor; auto. constructor.
  - induction 1 as [|l ps H IH|b p l ps Hb H IH].
    + constructor.
    + rewrite <- (app_nil_r ps). apply items_app; auto. constructor. constructor.
    + apply items_app; auto. rewrite <- (app_nil_r b). constructor; auto. constructor.
Qed.

Definition no_items_last (k : marks) (docs : list text) : Prop :=
  (forall a b p, docs = a ++ b -> ~ item k b p) /\ (forall a, docs <> a ++ [[]]).

Lemma search_step f k line up ps ret brk : line <> [] ->
  search (S f) k (line :: up) false ps ret brk =
  match step k line up with Some (p, above) => search f k above false (p :: ps) ret brk | None => (ps, ret, Some (S (length up))) end.
Proof.
  intros Hl. destruct line as [|c line]; [congruence|]. cbn [search]. unfold step.
  destruct (strip_suffix (end_ k) (trim_end (c :: line))); auto. destruct (find_begin k t up []) as [(buf, above)|]; auto. destruct (read_param buf); auto.
Qed.

Definition breaks (docs : list text) (brk : option nat) : option nat := match docs with [] => brk | _ => Some (length docs) end.

Lemma search_docs k docs : no_items_last k docs -> forall f ps ret brk, length docs <= f ->
  search f k (rev docs) false ps ret brk = (ps, ret, breaks docs brk).
Proof.
  intros (H1 & H2) f ps ret brk Hf. destruct docs as [|x docs] using rev_ind.
  - cbn. destruct f; auto.
  - clear IHdocs. rewrite app_length in Hf. cbn in Hf. destruct f as [|f]; [lia|]. rewrite rev_app_distr. cbn [rev app].
    assert (Hx : x <> []). { intros ->. apply (H2 docs). auto. }
    rewrite search_step by auto. destruct (step k x (rev docs)) as [(p, above)|] eqn:E.
    + exfalso. apply item_step in E. destruct E as (b & Eb & Hb). apply (H1 (rev above) b p); auto.
      apply (f_equal (@rev _)) in Eb. rewrite rev_app_distr, rev_involutive in Eb. cbn in Eb. rewrite rev_involutive in Eb. auto.
    + unfold breaks. rewrite rev_length. destruct (docs ++ [x]) eqn:E2; [destruct docs; discriminate|]. rewrite <- E2, app_length. cbn. do 2 f_equal. lia.
Qed.
Lemma search_items k docs : end_ k <> [] -> no_items_last k docs -> forall body ps, items_back k body ps -> forall f ps0 ret brk, length (docs ++ body) <= f ->
  search f k (rev (docs ++ body)) false ps0 ret brk = (ps ++ ps0, ret, breaks docs brk).
Proof.
  intros Hend Hd body ps H. induction H as [|l ps H IH|b p l ps Hb H IH]; intros f ps0 ret brk Hf.
  - rewrite app_nil_r in *. apply search_docs; auto.
  - rewrite app_assoc in *. rewrite rev_app_distr. rewrite app_length in Hf. cbn in Hf. destruct f as [|f]; [lia|]. cbn [rev app search]. apply IH. lia.
  - rewrite app_assoc in *. rewrite rev_app_distr. destruct (step_item k b p (rev (docs ++ l)) Hb) as (line & up & E & Es).
    rewrite E. assert (Hlen : length (line :: up) = length ((docs ++ l) ++ b)).
    { rewrite <- E, !app_length, !rev_length, app_length. lia. }
    cbn in Hlen. destruct f as [|f]; [lia|]. 
    assert (Hline : line <> []).
    { intros ->. unfold step in Es. cbn [trim_end rev drop_while] in Es. destruct (strip_suffix (end_ k) []) as [u|] eqn:Eu; [|discriminate].
      apply strip_suffix_ok in Eu. destruct u; [|discriminate]. cbn in Eu. congruence. }
    rewrite search_step, Es by auto. rewrite IH.
    + rewrite <- app_assoc. auto.
    + apply (f_equal (@length _)) in E. rewrite app_length, !rev_length in E. cbn in E. pose proof (item_nonempty _ _ _ Hb). destruct b; [congruence|]. cbn in E. lia.
Qed.

Lemma back_exists k : forall n up, length up <= n -> exists docs body ps, rev up = docs ++ body /\ items_back k body ps /\ no_items_last k docs.
Proof.
  induction n as [|n IH]; intros up Hn.
  - destruct up; [|cbn in Hn; lia]. exists [], [], []. split; auto. split; [constructor|]. split.
    + intros a b p E H. apply (item_nonempty _ _ _ H). destruct a; [|discriminate]. auto.
    + intros a E. destruct a; discriminate.
  - destruct up as [|line up].
    + apply IH. cbn. lia.
    + cbn in Hn. destruct line as [|c line].
      * destruct (IH up ltac:(lia)) as (docs & body & ps & E & Hi & Hd). exists docs, (body ++ [[]]), ps. cbn. rewrite E, <- app_assoc. split; auto. split; auto. constructor; auto.
      * destruct (step k (c :: line) up) as [(p, above)|] eqn:Es.
        -- apply item_step in Es. destruct Es as (b & Eb & Hb). destruct (IH above) as (docs & body & ps & E & Hi & Hd).
           { apply (f_equal (@length _)) in Eb. rewrite app_length, rev_length in Eb. cbn in Eb. pose proof (item_nonempty _ _ _ Hb). destruct b; [congruence|]. cbn in Eb. lia. }
           exists docs, (body ++ b), (ps ++ [p]). rewrite Eb, rev_app_distr, rev_involutive, E, <- app_assoc. split; auto. split; auto. constructor; auto.
        -- exists (rev ((c :: line) :: up)), [], []. rewrite app_nil_r. split; auto. split; [constructor|]. split.
           ++ intros a b p E Hb. destruct (step_item k b p (rev a) Hb) as (l' & u' & E' & Es'). rewrite <- rev_app_distr, <- E, rev_involutive in E'. injection E' as <- <-. congruence.
           ++ intros a E. cbn in E. apply app_inj_tail in E. destruct E as (_ & E). discriminate.
Qed.

Lemma returns_ok s ty : (exists w, strip_prefix [MINUS; GT] (trim_start s) = Some w /\ trim w = ty) <-> returns s ty.
Proof.
  unfold returns. split.
  - intros (w & E & Ht). apply strip_prefix_ok in E. exists w. split; [apply trim_start_ok|apply trim_ok]; auto.
  - intros (w & H1 & H2). exists w. apply trim_start_ok in H1. rewrite H1. split; [apply strip_prefix_ok; auto|apply trim_ok; auto].
Qed.
Lemma search_tail k : forall tail up f ps ret brk, empties tail -> search (length tail + f) k (tail ++ up) true ps ret brk = search f k up true ps ret brk.
Proof. induction tail as [|x tail IH]; intros up f ps ret brk H; auto. inversion H; subst. cbn. apply IH. auto. Qed.
Lemma search_true k : forall up f ps ret brk, (forall e l r, up = e ++ l :: r -> empties e -> l <> [] -> forall ty, ~ returns l ty) ->
  search f k up true ps ret brk = search f k up false ps ret brk.
Proof.
  induction up as [|x up IH]; intros f ps ret brk H; destruct f as [|f]; auto. destruct x as [|c x].
  - cbn. apply IH. intros e l r -> He Hl. apply (H ([] :: e) l r); auto. constructor; auto.
  - cbn [search]. destruct (strip_prefix [MINUS; GT] (trim_start (c :: x))) as [w|] eqn:E; auto.
    exfalso. apply (H [] (c :: x) up eq_refl (Forall_nil _) ltac:(discriminate) (trim w)). apply returns_ok. exists w. auto.
Qed.

Definition shown (s : text) (docs body : list text) (r : option (text * text)) : text :=
  match docs, r with [], None => s | [], Some _ => join body | _, _ => join docs end.
Lemma search_reads k ls docs body r ps : end_ k <> [] -> reads k ls docs body r ps ->
  search (length ls) k (rev ls) true [] None None =
  (ps, option_map snd r, breaks docs (match r with Some _ => Some (length (docs ++ body)) | None => None end)).
Proof.
  intros Hend (tail & E & Hi & Ht & Hr & Hd). apply items_back_ok in Hi. destruct r as [(l, ty)|].
  - rewrite E. cbn [option_map snd].
    replace (docs ++ body ++ [l] ++ tail) with ((docs ++ body) ++ l :: tail) by (rewrite <- app_assoc; auto).
    replace (length ((docs ++ body) ++ l :: tail)) with (length (rev tail) + S (length (docs ++ body))) by (rewrite !app_length, rev_length; cbn [length]; lia).
    rewrite rev_app_distr. cbn [rev]. rewrite <- app_assoc. cbn [app].
    rewrite search_tail by (apply Forall_rev; auto).
    apply returns_ok in Hr. destruct Hr as (w & Hw & <-). destruct l as [|c l].
    { cbn in Hw. discriminate. }
    cbn [search]. rewrite Hw, rev_length. rewrite (search_items k docs Hend Hd body ps Hi) by lia. rewrite app_nil_r. auto.
  - rewrite E. cbn [app option_map] in *. rewrite app_assoc, rev_app_distr. rewrite app_length, Nat.add_comm, <- (rev_length tail).
    rewrite search_tail by (apply Forall_rev; auto). rewrite search_true.
    + rewrite (search_items k docs Hend Hd body ps Hi) by lia. rewrite app_nil_r. auto.
    + intros e l q Eq He Hl. apply (Hr (rev q) l (rev e ++ tail)); auto.
      * apply (f_equal (@rev _)) in Eq. rewrite rev_involutive, rev_app_distr in Eq. cbn in Eq. rewrite <- app_assoc in Eq. cbn in Eq.
        rewrite E, app_assoc, Eq, <- app_assoc. auto.
      * apply Forall_app. split; auto. apply Forall_rev. auto.
Qed.
Lemma reads_exists k ls : exists docs body r ps, reads k ls docs body r ps.
Proof.
  assert (X : exists e rest, rev ls = e ++ rest /\ empties e /\ (rest = [] \/ exists l q, rest = l :: q /\ l <> [])).
  { generalize (rev ls). induction l as [|x l (e & rest & -> & He & Hr)].
    - exists [], []. split; auto. split; [constructor|]. auto.
    - destruct x as [|c x].
      + exists ([] :: e), rest. split; auto. split; auto. constructor; auto.
      + exists [], ((c :: x) :: e ++ rest). split; auto. split; [constructor|]. right. exists (c :: x), (e ++ rest). split; auto. discriminate. }
  destruct X as (e & rest & E & He & Hrest). apply (f_equal (@rev _)) in E. rewrite rev_involutive, rev_app_distr in E.
  assert (Hn : (forall l q, rest = l :: q -> forall ty, ~ returns l ty) -> exists docs body r ps, reads k ls docs body r ps).
  { intros Hno. destruct (back_exists k (length rest) rest) as (docs & body & ps & Eb & Hi & Hd); auto.
    exists docs, body, None, ps, (rev e). cbn [app]. split; [rewrite E, Eb, <- app_assoc; auto|]. split; [apply items_back_ok; auto|]. split; [apply Forall_rev; auto|]. split; auto.
    intros a l m El Hm Hl ty. assert (Er : exists q, rest = l :: q).
    { rewrite E in El. apply (f_equal (@rev _)) in El. rewrite !rev_app_distr, !rev_involutive in El. cbn in El. rewrite <- app_assoc in El. cbn in El.
      assert (Hm' : empties (rev m)) by (apply Forall_rev; auto). clear Hm. rename Hm' into Hm. revert El He Hm Hl Hrest. generalize (rev m) as m'. generalize (rev a) as a'. clear. induction e as [|x e IH]; intros a' m' El He Hm Hl Hrest; cbn in El.
      - destruct m' as [|y m']; cbn in El; [eauto|]. apply Forall_inv in Hm. exfalso. rewrite Hm in El. destruct Hrest as [E0|(l' & q & E0 & Hl')]; rewrite E0 in El; [discriminate El|]. injection El as Ey _. apply Hl'. rewrite Ey. auto.
      - inversion He; subst. destruct m' as [|y m']; cbn in El; [injection El as <- _; congruence|]. injection El as _ El. inversion Hm; subst. eapply IH; eauto. }
    destruct Er as (q & ->). eapply Hno; eauto. }
  destruct rest as [|l q]; [apply Hn; discriminate|].
  destruct (strip_prefix [MINUS; GT] (trim_start l)) as [w|] eqn:Ew.
  - destruct (back_exists k (length q) q) as (docs & body & ps & Eb & Hi & Hd); auto.
    exists docs, body, (Some (l, trim w)), ps, (rev e). split; [rewrite E; cbn [rev]; rewrite Eb, <- !app_assoc; auto|].
    split; [apply items_back_ok; auto|]. split; [apply Forall_rev; auto|]. split; auto. apply returns_ok. eauto.
  - apply Hn. intros l' q' El ty Hty. injection El as <- <-. apply returns_ok in Hty. destruct Hty as (w & Hw & _). congruence.
Qed.

Lemma identify_reads k s ls docs body r ps : end_ k <> [] -> in_lines s ls -> reads k ls docs body r ps ->
  identify k s = (shown s docs body r, option_map snd r, ps).
Proof.
  intros Hend Hl Hr. apply lines_complete in Hl. unfold identify. rewrite Hl. rewrite (search_reads k ls docs body r ps Hend Hr).
  destruct Hr as (tail & E & _). f_equal. f_equal. unfold shown, breaks. destruct docs as [|d docs].
  - destruct r as [(l, ty)|]; auto. rewrite E. cbn [app]. rewrite firstn_app, firstn_all, Nat.sub_diag, firstn_O, app_nil_r. auto.
  - assert (F : firstn (length (d :: docs)) ls = d :: docs).
    { rewrite E, firstn_app, firstn_all, Nat.sub_diag, firstn_O, app_nil_r. auto. }
    rewrite F. auto.
Qed.
Lemma identify_ok k s t ret ps : end_ k <> [] ->
  (identify k s = (t, ret, ps) <-> exists ls docs body r, in_lines s ls /\ reads k ls docs body r ps /\ ret = option_map snd r /\
     (docs <> [] -> lined docs t) /\ (docs = [] -> match r with None => t = s | Some _ => lined body t end)).
Proof.
  intros Hend. split.
  - intros H. destruct (reads_exists k (lines s)) as (docs & body & r & ps' & Hr).
    rewrite (identify_reads k s _ docs body r ps' Hend (lines_ok s) Hr) in H. injection H as H1 H2 H3. subst ps'.
    exists (lines s), docs, body, r. split; [apply lines_ok|]. split; auto. split; auto. subst t. unfold shown. split.
    + intros Hd. destruct docs; [congruence|]. destruct r; apply lined_join; auto.
    + intros ->. destruct r; auto. apply lined_join. auto.
  - intros (ls & docs & body & r & Hl & Hr & -> & H1 & H2). rewrite (identify_reads k s ls docs body r ps Hend Hl Hr). f_equal. f_equal.
    unfold shown. destruct docs as [|d docs].
    + specialize (H2 eq_refl). destruct r; auto. symmetry. apply lined_join. auto.
    + specialize (H1 ltac:(discriminate)). apply lined_join in H1. destruct r; auto.
Qed.

(** * Fences *)

(** The longest run, and the run at the end. *)
Lemma ticks_ok : forall s, exists m n, fold_left (fun mc c => let '(m, n) := mc in if N.eqb c TICK then (Nat.max m (S n), S n) else (m, 0)) s (0, 0) = (m, n) /\
  n <= m /\ (exists u, s = u ++ repeat TICK n /\ forall u', u <> u' ++ [TICK]) /\ occurs (repeat TICK m) s /\ ~ occurs (repeat TICK (S m)) s.
Proof.
  induction s as [|c s IH] using rev_ind.
  - exists 0, 0. split; auto. split; auto. split; [exists []; split; auto; intros [|x u] E; discriminate|]. split; [exists [], []; auto|].
    intros (u & v & E). destruct u; discriminate.
  - destruct IH as (m & n & E & Hle & (u & Eu & Hu) & (a & b & Ea) & Hno). rewrite fold_left_app, E. cbn [fold_left].
    assert (Rs : forall j, repeat TICK j ++ [TICK] = repeat TICK (S j)) by (intros j; induction j; cbn; [auto|f_equal; auto]).
    destruct (N.eqb_spec c TICK) as [->|Hc].
    + exists (Nat.max m (S n)), (S n). split; auto. split; [lia|]. split; [|split].
      * exists u. split; auto. rewrite Eu at 1. rewrite <- app_assoc, Rs. auto.
      * destruct (Nat.max_spec m (S n)) as [(_ & ->)|(_ & ->)].
        -- exists u, []. rewrite app_nil_r. rewrite Eu at 1. rewrite <- app_assoc, Rs. auto.
        -- exists a, (b ++ [TICK]). rewrite Ea at 1. rewrite <- !app_assoc. auto.
      * intros (p & q & Ep). destruct q as [|y q] using rev_ind.
        -- rewrite app_nil_r in Ep. rewrite <- Rs, app_assoc in Ep. apply app_inj_tail in Ep. destruct Ep as (Ep & _).
           assert (L : Nat.max m (S n) <= n); [|lia].
           rewrite Ep in Eu. clear -Eu Hu. set (k := Nat.max m (S n)) in *. clearbody k. clear m.
           destruct (le_lt_dec k n) as [|Hlt]; auto. exfalso.
           assert (X : repeat TICK k = repeat TICK (k - n - 1) ++ [TICK] ++ repeat TICK n).
           { replace k with ((k - n - 1) + S n) at 1 by lia. rewrite repeat_app. auto. }
           rewrite X, !app_assoc in Eu. apply app_inv_tail in Eu. eapply Hu. symmetry. rewrite <- app_assoc in Eu. rewrite app_assoc in Eu. exact Eu.
        -- clear IHq. rewrite !app_assoc in Ep. apply app_inj_tail in Ep. destruct Ep as (Ep & _). apply Hno.
           exists p, (repeat TICK (Nat.max m (S n) - m) ++ q). rewrite Ep, <- app_assoc. f_equal. rewrite app_assoc. f_equal. rewrite <- repeat_app. f_equal. lia.
    + exists m, 0. split; auto. split; [lia|]. split; [|split].
      * exists (s ++ [c]). cbn. rewrite app_nil_r. split; auto. intros u' E'. apply app_inj_tail in E'. destruct E'. congruence.
      * exists a, (b ++ [c]). rewrite Ea at 1. rewrite <- !app_assoc. auto.
      * intros (p & q & Ep). destruct q as [|y q] using rev_ind.
        -- rewrite app_nil_r, <- Rs, app_assoc in Ep. apply app_inj_tail in Ep. destruct Ep. congruence.
        -- clear IHq. rewrite !app_assoc in Ep. apply app_inj_tail in Ep. destruct Ep as (Ep & _). apply Hno. exists p, q. rewrite Ep, <- app_assoc. auto.
Qed.
Lemma occurs_less a b s : a <= b -> occurs (repeat TICK b) s -> occurs (repeat TICK a) s.
Proof.
  intros H (u & v & ->). exists u, (repeat TICK (b - a) ++ v). f_equal. rewrite app_assoc. f_equal. rewrite <- repeat_app. f_equal. lia.
Qed.
Lemma fence_ok s : exists n, fence s = repeat TICK n /\ 3 <= n /\ ~ occurs (repeat TICK n) s /\ (n = 3 \/ occurs (repeat TICK (n - 1)) s).
Proof.
  unfold fence, max_ticks. destruct (ticks_ok s) as (m & k & E & _ & _ & H1 & H2). rewrite E. cbn [fst].
  exists (Nat.max (m + 1) 3). split; auto. split; [lia|]. split.
  - intros H. apply H2. eapply occurs_less; [|exact H]. lia.
  - destruct (le_lt_dec (m + 1) 3); [left; lia|right]. replace (Nat.max (m + 1) 3 - 1) with m by lia. auto.
Qed.
Lemma escape_ok s t : escape s = t <-> escaped s t.
Proof.
  split.
  - intros <-. induction s as [|c s IH]; cbn; [constructor|]. destruct (N.eqb_spec c TICK) as [->|Hc]; cbn; constructor; auto.
  - induction 1 as [|s t H IH|c s t Hc H IH]; auto.
    + cbn. f_equal. f_equal. auto.
    + cbn. apply N.eqb_neq in Hc. rewrite Hc. cbn. f_equal. auto.
Qed.
Lemma escaped_single s t : escaped s t -> ~ occurs [TICK; TICK] t.
Proof.
  intros H. assert (Hs : forall s t, escaped s t -> forall v, t <> TICK :: v).
  { intros s0 t0 H0 v E. destruct H0; try discriminate. injection E as -> _. congruence. }
  induction H as [|s t H IH|c s t Hc H IH]; intros (u & v & E).
  - destruct u; discriminate.
  - destruct u as [|x [|y u]]; cbn in E; try discriminate.
    + injection E as _ E. eapply Hs; eauto.
    + injection E as _ _ E. apply IH. exists u, v. auto.
  - destruct u as [|x u]; cbn in E.
    + injection E as -> _. congruence.
    + injection E as _ E. apply IH. exists u, v. auto.
Qed.
