(** Proofs about the texts, tables and files of the conversion to Markdown. *)
From Coq Require Import String.
From Coq Require Import List Arith NArith ZArith Bool Lia.
From Verif Require Import MdModel MdSpec MdProof.
Import ListNotations.
Local Open Scope nat_scope.

(** * Fences *)

Definition ticks (s : text) : nat * nat := fold_left (fun x c => if N.eqb c 96 then (fst x, S (snd x)) else (Nat.max (fst x) (snd x), 0)) s (0, 0).
Lemma ticks_snoc s c : ticks (s ++ [c]) = if N.eqb c 96 then (fst (ticks s), S (snd (ticks s))) else (Nat.max (fst (ticks s)) (snd (ticks s)), 0).
Proof. unfold ticks. rewrite fold_left_app. reflexivity. Qed.
Lemma repeat_snoc {A} (x : A) k : repeat x (S k) = repeat x k ++ [x].
Proof. induction k; cbn; [auto|]. f_equal. auto. Qed.
Lemma ticks_inv s :
  (forall a k, s = a ++ repeat 96%N k -> k <= snd (ticks s)) /\ (forall k, has_run k s -> k <= Nat.max (fst (ticks s)) (snd (ticks s))) /\
  (exists a, s = a ++ repeat 96%N (snd (ticks s))) /\ has_run (fst (ticks s)) s.
Proof.
  induction s as [|c s IH] using rev_ind.
  - split; [|split; [|split]].
    + intros a k H. symmetry in H. apply app_eq_nil in H. destruct H as (_ & H). destruct k; [cbn; lia|discriminate].
    + intros k (a & b & H). symmetry in H. apply app_eq_nil in H. destruct H as (_ & H). apply app_eq_nil in H. destruct H as (H & _). destruct k; [cbn; lia|discriminate].
    + exists []. auto.
    + exists [], []. auto.
  - destruct IH as (I1 & I2 & (a0 & I3) & I4). rewrite ticks_snoc.
    assert (Suf : forall a k, s ++ [c] = a ++ repeat 96%N (S k) -> c = 96%N /\ s = a ++ repeat 96%N k).
    { intros a k H. rewrite repeat_snoc, app_assoc in H. apply app_inj_tail in H. destruct H; auto. }
    assert (Run : forall k, has_run k (s ++ [c]) -> has_run k s \/ exists a, s ++ [c] = a ++ repeat 96%N k).
    { intros k (a & b & H). destruct b as [|x b] using rev_ind; [right; exists a; rewrite app_nil_r in H; auto|]. left. rewrite !app_assoc in H. apply app_inj_tail in H. destruct H as (H & _).
      exists a, b. rewrite H, app_assoc. auto. }
    assert (Ext : forall k, has_run k s -> has_run k (s ++ [c])).
    { intros k (a & b & H). exists a, (b ++ [c]). rewrite H, <- !app_assoc. auto. }
    destruct (N.eqb_spec c 96) as [->|Hc]; cbn [fst snd].
    + split; [|split; [|split]].
      * intros a [|k] H; [lia|]. apply Suf in H. destruct H as (_ & H). apply I1 in H. lia.
      * intros k H. apply Run in H. destruct H as [H|(a & H)]; [apply I2 in H; lia|]. destruct k as [|k]; [lia|]. apply Suf in H. destruct H as (_ & H). apply I1 in H. lia.
      * exists a0. rewrite repeat_snoc, app_assoc, <- I3. auto.
      * apply Ext; auto.
    + split; [|split; [|split]].
      * intros a [|k] H; [lia|]. apply Suf in H. tauto.
      * intros k H. apply Run in H. destruct H as [H|(a & H)]; [apply I2 in H; lia|]. destruct k as [|k]; [lia|]. apply Suf in H. tauto.
      * exists (s ++ [c]). rewrite app_nil_r. auto.
      * apply Ext. destruct (Nat.max_spec (fst (ticks s)) (snd (ticks s))) as [(_ & ->)|(_ & ->)]; [exists a0, []; rewrite app_nil_r; auto|auto].
Qed.
Lemma fence_ok s : (forall a, s <> a ++ [96%N]) ->
  exists n, raw_block s = repeat 96%N n ++ [10%N] ++ s ++ [10%N] ++ repeat 96%N n /\ 3 <= n /\ ~ has_run n s /\ (n = 3 \/ has_run (pred n) s).
Proof.
  intros H. destruct (ticks_inv s) as (I1 & I2 & (a0 & I3) & I4). exists (Nat.max (max_ticks s + 1) 3). split; [reflexivity|]. split; [lia|]. change (max_ticks s) with (fst (ticks s)).
  assert (Hz : snd (ticks s) = 0). { destruct (snd (ticks s)) as [|k] eqn:E; [auto|]. exfalso. rewrite repeat_snoc, app_assoc in I3. eapply H; eauto. }
  split.
  - intros Hr. apply I2 in Hr. rewrite Hz in Hr. lia.
  - destruct (le_lt_dec (fst (ticks s) + 1) 3); [left; lia|right]. replace (pred (Nat.max (fst (ticks s) + 1) 3)) with (fst (ticks s)) by lia. auto.
Qed.

Lemma escaped_ok err : ~ has_run 2 (flat_map (fun c => if N.eqb c 96 then [92; 96]%N else [c]) err).
Proof.
  intros (a & b & H). revert a H. induction err as [|c err IH]; intros a H; cbn [flat_map] in H.
  - symmetry in H. apply app_eq_nil in H. destruct H as (_ & H). discriminate.
  - destruct (N.eqb_spec c 96) as [->|Hc].
    + destruct a as [|x [|y a]]; cbn [app repeat] in H.
      * discriminate.
      * injection H as _ H. destruct err as [|d err]; [discriminate|]. cbn [flat_map] in H. destruct (N.eqb_spec d 96) as [->|Hd]; cbn in H; [discriminate|]. injection H as H _. auto.
      * injection H as _ _ H. eapply IH; eauto.
    + destruct a as [|x a]; cbn [app repeat] in H.
      * injection H as H _. auto.
      * injection H as _ H. eapply IH; eauto.
Qed.

(** * Lines *)

Lemma lines_skip l : forall cur s, ~ In 10%N l -> lines_acc cur (l ++ s) = lines_acc (rev l ++ cur) s.
Proof.
  induction l as [|c l IH]; intros cur s H; [auto|]. cbn [app lines_acc rev]. destruct (N.eqb_spec c 10) as [->|Hc]; [exfalso; apply H; left; auto|]. rewrite IH; [|intros Hx; apply H; right; auto]. rewrite <- app_assoc. auto.
Qed.
Lemma lines_fun s ls : is_lines s ls -> lines_acc [] s = ls.
Proof.
  induction 1 as [|l Hn Hi|l s ls Hi Hr H IH|l s ls Hi H IH].
  - auto.
  - rewrite <- (app_nil_r l) at 1. rewrite lines_skip by auto. rewrite app_nil_r. cbn [lines_acc]. destruct (rev l) as [|x r] eqn:E.
    + apply (f_equal (@rev N)) in E. rewrite rev_involutive in E. contradiction.
    + rewrite <- E, rev_involutive. auto.
  - rewrite lines_skip by auto. rewrite app_nil_r. cbn [app lines_acc N.eqb Pos.eqb]. rewrite IH. f_equal. destruct (rev l) as [|x r] eqn:E.
    + apply (f_equal (@rev N)) in E. rewrite rev_involutive in E. auto.
    + apply (f_equal (@rev N)) in E. rewrite rev_involutive in E. destruct (N.eqb_spec x 13) as [->|Hx]; [|auto]. cbn in E. exfalso. eapply Hr; eauto.
  - replace (l ++ [13; 10]%N ++ s) with ((l ++ [13%N]) ++ 10%N :: s) by (rewrite <- app_assoc; auto). rewrite lines_skip.
    + rewrite app_nil_r, rev_app_distr. cbn [app rev lines_acc N.eqb Pos.eqb]. rewrite IH, rev_involutive. auto.
    + intros Hx. apply in_app_or in Hx. destruct Hx as [Hx|[Hx|[]]]; [auto|discriminate].
Qed.
Lemma lines_total : forall n s, length s <= n -> exists ls, is_lines s ls.
Proof.
  induction n as [|n IH]; intros s Hn; [destruct s; [exists []; constructor|cbn in Hn; lia]|].
  destruct (in_dec N.eq_dec 10%N s) as [Hi|Hi].
  - assert (Split : exists l r, s = l ++ 10%N :: r /\ ~ In 10%N l).
    { clear -Hi. induction s as [|c s IHs]; [destruct Hi|]. destruct (N.eq_dec c 10) as [->|Hc]; [exists [], s; auto|]. destruct Hi as [Hi|Hi]; [congruence|]. destruct (IHs Hi) as (l & r & -> & Hl). exists (c :: l), r. split; [auto|]. intros [Hx|Hx]; auto. }
    destruct Split as (l & r & -> & Hl). rewrite app_length in Hn. cbn in Hn. destruct (IH r ltac:(lia)) as (ls & Hls).
    destruct l as [|c l _] using rev_ind.
    + exists ([] :: ls). apply (lines_nl [] r ls); auto. intros x Hx. destruct x; discriminate.
    + destruct (N.eq_dec c 13) as [->|Hc].
      * exists (l :: ls). rewrite <- app_assoc. apply (lines_crnl l r ls); auto. intros Hx. apply Hl. apply in_or_app. auto.
      * exists ((l ++ [c]) :: ls). apply (lines_nl (l ++ [c]) r ls); auto. intros x Hx. apply app_inj_tail in Hx. destruct Hx; auto.
  - destruct s as [|c s]; [exists []; constructor|]. exists [c :: s]. constructor; [discriminate|auto].
Qed.

(** * Tables *)

Lemma chunks_fun {A} n (l : list A) rs : n <> 0 -> in_rows n l rs -> forall fuel, length l <= fuel -> chunks n fuel l = rs.
Proof.
  intros Hn. induction 1 as [|r Hr Hl|r l rs Hr Hl H IH]; intros fuel Hf.
  - destruct fuel; auto.
  - destruct r as [|x r]; [contradiction|]. destruct fuel as [|fuel]; [cbn in Hf; lia|]. cbn [chunks]. rewrite firstn_all2, skipn_all2 by auto. destruct fuel; auto.
  - destruct r as [|x r]; [cbn in Hr; lia|]. destruct fuel as [|fuel]; [cbn in Hf; lia|]. cbn [app chunks].
    change (x :: r ++ l) with ((x :: r) ++ l). rewrite firstn_app, skipn_app, Hr, Nat.sub_diag, firstn_all2, skipn_all2 by lia. cbn [firstn skipn app]. rewrite app_nil_r. f_equal. apply IH. cbn in Hf. rewrite app_length in Hf. cbn in Hr. lia.
Qed.
Lemma rows_total {A} n : n <> 0 -> forall k (l : list A), length l <= k -> exists rs, in_rows n l rs.
Proof.
  intros Hn. induction k as [|k IH]; intros l Hk; [destruct l; [exists []; constructor|cbn in Hk; lia]|].
  destruct l as [|x l]; [exists []; constructor|]. destruct (le_lt_dec (length (x :: l)) n) as [H|H]; [exists [x :: l]; constructor; [discriminate|auto]|].
  destruct (IH (skipn n (x :: l))) as (rs & Hrs); [rewrite skipn_length; cbn [length] in *; lia|].
  exists (firstn n (x :: l) :: rs). rewrite <- (firstn_skipn n (x :: l)) at 1. constructor; auto.
  - apply firstn_length_le. lia.
  - intros Hx. apply (f_equal (@length A)) in Hx. rewrite skipn_length in Hx. cbn [length] in *. lia.
Qed.

Lemma evals_all ms : forall s ts s', evals ms s ts s' -> eval_all ms s = Done ts s'.
Proof. induction 1 as [|m ms s v s1 ts s2 H _ IH]; cbn; [auto|]. unfold as_content, bind, ret. rewrite H, IH. auto. Qed.

Definition argument (e : env) (inc : text -> step text) (p : option text * node) : arg :=
  match p with
  | (k, a) =>
      {| key := k; src := a; run := eval e inc a;
         lazy := match a with Closure _ b => eval e inc b | _ => eval e inc a end;
         inner := match a with
                  | Call _ _ l => flat_map (fun q => match q with (None, b) => [eval e inc b] | (Some _, _) => [] end) l
                  | _ => []
                  end |}
  end.
Lemma eval_call e inc t x args : eval e inc (Call t (Name x) args) = kept t (library e x (map (argument e inc) args)).
Proof. reflexivity. Qed.

Lemma cells_fun e inc kind ns : forall s hs cs s',
  gathers (eval e inc) kind ns s hs cs s' -> table_cells kind (map (argument e inc) (map (pair None) ns)) s = Done (hs, cs) s'.
Proof.
  induction 1 as [|n ns s v s1 hs cs s2 Hn Hv _ IH|t l ns s hs1 s1 hs cs s2 Hl _ IH].
  - reflexivity.
  - cbn [map table_cells]. unfold bind at 1.
    assert (E : (match src (argument e inc (None, n)) with
            | Call _ (Field x y) _ =>
                if text_eqb x kind && text_eqb y (lit "header") then bind (eval_all (inner (argument e inc (None, n)))) (fun ts => ret (ts, []))
                else
                  bind (as_content (run (argument e inc (None, n)))) (fun t =>
                  if text_eqb x kind && text_eqb y (lit "footer") then bind (eval_all (inner (argument e inc (None, n)))) (fun ts => ret ([], t :: ts))
                  else ret ([], [t]))
            | _ => bind (as_content (run (argument e inc (None, n)))) (fun t => ret ([], [t]))
            end) s = Done ([], [show v]) s1).
    { assert (Plain : bind (as_content (run (argument e inc (None, n)))) (fun t => ret (@nil text, [t])) s = Done ([], [show v]) s1).
      { unfold bind, as_content, bind, ret. cbn [argument run]. rewrite Hv. auto. }
      destruct n; try exact Plain. destruct c as [x|x y|]; try exact Plain. cbn [argument src].
      assert (Hh : text_eqb x kind && text_eqb y (lit "header") = false).
      { destruct (text_eqb x kind && text_eqb y (lit "header")) eqn:E; [|auto]. apply andb_true_iff in E. rewrite !text_eqb_ok in E. exfalso. apply Hn. cbn [special]. tauto. }
      assert (Hf : text_eqb x kind && text_eqb y (lit "footer") = false).
      { destruct (text_eqb x kind && text_eqb y (lit "footer")) eqn:E; [|auto]. apply andb_true_iff in E. rewrite !text_eqb_ok in E. exfalso. apply Hn. cbn [special]. tauto. }
      rewrite Hh, Hf. exact Plain. }
    rewrite E. unfold bind. rewrite IH. reflexivity.
  - cbn [map table_cells argument src]. assert (E1 : text_eqb kind kind = true) by (apply text_eqb_ok; auto). rewrite E1.
    change (text_eqb (lit "header") (lit "header")) with true. cbn [andb inner].
    assert (E2 : flat_map (fun q : option text * node => match q with (Some _, _) => [] | (None, b) => [eval e inc b] end) (map (pair None) l) = map (eval e inc) l).
    { clear. induction l; cbn; [auto|]. f_equal. auto. }
    rewrite E2. unfold bind. rewrite (evals_all _ _ _ _ Hl). cbn [ret]. rewrite IH. reflexivity.
Qed.
Lemma flat_concat {A B} (f : A -> list B) l : flat_map f l = concat (map f l).
Proof. apply flat_map_concat_map. Qed.
Lemma html_ok hs rows : table_text hs rows = html hs rows.
Proof.
  unfold table_text, html. rewrite !flat_concat. unfold row.
  assert (C : forall tag cs, concat (map (cell tag) cs) = concat (map (fun c => lit "      <" ++ tag ++ lit ">" ++ c ++ lit "</" ++ tag ++ lit ">" ++ [10%N]) cs)) by reflexivity.
  do 2 f_equal. f_equal; [|f_equal; f_equal; f_equal].
  - destruct hs as [|h hs]; [auto|]. rewrite <- !app_assoc. reflexivity.
  - f_equal. apply map_ext. intros r. do 2 f_equal. rewrite flat_concat. reflexivity.
Qed.
Lemma positional_all e inc ns : positional (map (argument e inc) (map (pair None) ns)) = map (argument e inc) (map (pair None) ns).
Proof. unfold positional. induction ns as [|n ns IH]; cbn; [auto|]. f_equal. auto. Qed.
Lemma named_none e inc k ns : named k (map (argument e inc) (map (pair None) ns)) = None.
Proof. unfold named. induction ns as [|n ns IH]; cbn; auto. Qed.

(** * Examples *)

Lemma strip_spec p : forall s, match strip_prefix p s with Some t => s = p ++ t | None => ~ begins p s end.
Proof.
  induction p as [|x p IH]; intros s; cbn; [auto|]. destruct s as [|y s].
  - intros (t & H). discriminate.
  - destruct (N.eqb_spec x y) as [->|Hx].
    + specialize (IH s). destruct (strip_prefix p s) as [t|]; [congruence|]. intros (t & H). cbn in H. injection H as H. apply IH. exists t. auto.
    + intros (t & H). cbn in H. injection H as H _. auto.
Qed.
Lemma two_marks l : begins (lit ">>>") l -> begins (lit "<<< ") l -> False.
Proof. intros (a & ->) (b & H). discriminate. Qed.
Lemma split_ok ls : exists ds cs, split_example ls = (each_line ds, each_line cs) /\
  chosen shown_as (begins (lit ">>>")) ls ds /\ chosen compiled_as (begins (lit "<<< ")) ls cs.
Proof.
  induction ls as [|l ls (ds & cs & E & Hd & Hc)]; [exists [], []; repeat split; constructor|]. cbn [split_example]. rewrite E. cbn [fst snd].
  pose proof (strip_spec (lit ">>>") l) as H1. pose proof (strip_spec (lit "<<< ") l) as H2.
  destruct (strip_prefix (lit ">>>") l) as [x|].
  - exists ds, (x :: cs). split; [|split].
    + unfold each_line. cbn [map concat]. rewrite <- app_assoc. auto.
    + apply chosen_no; [exists x; auto|auto].
    + apply chosen_yes; [left; auto|auto].
  - destruct (strip_prefix (lit "<<< ") l) as [x|].
    + exists (x :: ds), cs. split; [|split].
      * unfold each_line. cbn [map concat]. rewrite <- app_assoc. auto.
      * apply chosen_yes; [split; auto|auto].
      * apply chosen_no; [exists x; auto|auto].
    + exists (l :: ds), (l :: cs). split; [|split].
      * unfold each_line. cbn [map concat]. rewrite <- !app_assoc. auto.
      * apply chosen_yes; [split; auto|auto].
      * apply chosen_yes; [right; auto|auto].
Qed.
Lemma shown_fun ls ds : chosen shown_as (begins (lit ">>>")) ls ds -> fst (split_example ls) = each_line ds.
Proof.
  induction 1 as [|l d ls ds (Hn & Hd) _ IH|l ls ds Hq _ IH]; [auto| |]; cbn [split_example];
    pose proof (strip_spec (lit ">>>") l) as H1; pose proof (strip_spec (lit "<<< ") l) as H2.
  - destruct (strip_prefix (lit ">>>") l) as [x|]; [exfalso; apply Hn; exists x; auto|]. unfold each_line in *. cbn [map concat]. rewrite <- app_assoc.
    destruct (strip_prefix (lit "<<< ") l) as [x|]; cbn [fst]; rewrite IH.
    + destruct Hd as [Hd|(Hd & _)]; [|exfalso; apply Hd; exists x; auto]. rewrite H2 in Hd. apply app_inv_head in Hd. subst. auto.
    + destruct Hd as [Hd|(_ & ->)]; [|auto]. exfalso. apply H2. exists d. auto.
  - destruct (strip_prefix (lit ">>>") l) as [x|]; [auto|contradiction].
Qed.
Lemma compiled_fun ls cs : chosen compiled_as (begins (lit "<<< ")) ls cs -> snd (split_example ls) = each_line cs.
Proof.
  induction 1 as [|l c ls cs Hd _ IH|l ls cs Hq _ IH]; [auto| |]; cbn [split_example];
    pose proof (strip_spec (lit ">>>") l) as H1; pose proof (strip_spec (lit "<<< ") l) as H2.
  - unfold each_line in *. cbn [map concat]. rewrite <- app_assoc. destruct (strip_prefix (lit ">>>") l) as [x|]; cbn [snd].
    + rewrite IH. destruct Hd as [Hd|(Hd & _)]; [|exfalso; apply Hd; exists x; auto]. rewrite H1 in Hd. apply app_inv_head in Hd. subst. auto.
    + destruct Hd as [Hd|(_ & Hd & ->)]; [exfalso; apply H1; exists c; auto|]. destruct (strip_prefix (lit "<<< ") l) as [x|]; cbn [snd]; [exfalso; apply Hd; exists x; auto|rewrite IH; auto].
  - destruct (strip_prefix (lit ">>>") l) as [x|]; [exfalso; apply (two_marks l); [exists x; auto|auto]|]. destruct (strip_prefix (lit "<<< ") l) as [x|]; [auto|contradiction].
Qed.
