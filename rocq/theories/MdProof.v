(** Proofs about the conversion to Markdown. *)
From Coq Require Import String.
From Coq Require Import List Arith NArith ZArith Bool Lia.
From Verif Require Import MdModel MdSpec.
Import ListNotations.
Local Open Scope nat_scope.

Lemma text_eqb_ok : forall a b, text_eqb a b = true <-> a = b.
Proof.
  induction a as [|x a IH]; intros [|y b]; cbn; try (split; congruence). rewrite andb_true_iff, N.eqb_eq, IH. split; [intros (-> & ->); auto|intros E; injection E; auto].
Qed.

(** * Induction over nodes *)

Section Ind.
  Variable Q : node -> Prop.
  Hypothesis HV : forall t, Q (Verbatim t).
  Hypothesis HL : Q LineBreak.
  Hypothesis HH : Q HashMark.
  Hypothesis HS : forall t, Q (Silent t).
  Hypothesis HM : Q Mute.
  Hypothesis HI : forall z, Q (IntLit z).
  Hypothesis HA : forall n, Q (ArrayLit n).
  Hypothesis HStr : forall s, Q (StrLit s).
  Hypothesis HF : Q Fails.
  Hypothesis HSeq : forall l, Forall Q l -> Q (Seq l).
  Hypothesis HBlock : forall b, Q b -> Q (Block b).
  Hypothesis HParen : forall t b, Q b -> Q (Paren t b).
  Hypothesis HStrong : forall b, Q b -> Q (Strong b).
  Hypothesis HEmph : forall b, Q b -> Q (Emph b).
  Hypothesis HHead : forall k b, Q b -> Q (Heading k b).
  Hypothesis HRaw : forall l b t ls, Q (Raw l b t ls).
  Hypothesis HLink : forall t, Q (AutoLink t).
  Hypothesis HList : forall b, Q b -> Q (ListItem b).
  Hypothesis HEnum : forall k b, Q b -> Q (EnumItem k b).
  Hypothesis HEq : forall b t, Q (Equation b t).
  Hypothesis HCtx : forall t, Q (Contextual t).
  Hypothesis HClo : forall t b, Q b -> Q (Closure t b).
  Hypothesis HCall : forall t c args, Forall (fun p => Q (snd p)) args -> Q (Call t c args).
  Hypothesis HInc : forall t p, Q (Include t p).
  Fixpoint node_all (n : node) : Q n :=
    match n with
    | Verbatim t => HV t | LineBreak => HL | HashMark => HH | Silent t => HS t | Mute => HM | IntLit z => HI z | ArrayLit k => HA k | StrLit s => HStr s | Fails => HF
    | Seq l => HSeq l ((fix go l : Forall Q l := match l with [] => Forall_nil Q | x :: l' => @Forall_cons _ Q x l' (node_all x) (go l') end) l)
    | Block b => HBlock b (node_all b) | Paren t b => HParen t b (node_all b)
    | Strong b => HStrong b (node_all b) | Emph b => HEmph b (node_all b) | Heading k b => HHead k b (node_all b)
    | Raw l b t ls => HRaw l b t ls | AutoLink t => HLink t | ListItem b => HList b (node_all b) | EnumItem k b => HEnum k b (node_all b)
    | Equation b t => HEq b t | Contextual t => HCtx t | Closure t b => HClo t b (node_all b)
    | Call t c args => HCall t c args
        ((fix go (l : list (option text * node)) : Forall (fun p => Q (snd p)) l :=
            match l with [] => Forall_nil _ | (k, x) :: l' => @Forall_cons _ (fun p => Q (snd p)) (k, x) l' (node_all x) (go l') end) args)
    | Include t p => HInc t p
    end.
End Ind.

(** * What all steps keep *)

Section Ok.
  Variable R : state -> state -> Prop.
  Variables PP EE : Prop.
  Definition ok {A} (m : step A) : Prop :=
    forall s, match m s with Done _ s' => R s s' | Failed => True | Panicked => PP | Endless => EE end.
  Hypothesis Rr : forall s, R s s.
  Hypothesis Rt : forall a b c, R a b -> R b c -> R a c.

  Lemma ok_ret {A} (a : A) : ok (ret a).
  Proof. intros s. apply Rr. Qed.
  Lemma ok_fail {A} : ok (@fail A).
  Proof. intros s. exact I. Qed.
  Lemma ok_bind {A B} (m : step A) (f : A -> step B) : ok m -> (forall a, ok (f a)) -> ok (bind m f).
  Proof.
    intros Hm Hf s. unfold bind. specialize (Hm s). destruct (m s) as [a s'| | |]; auto. specialize (Hf a s'). destruct (f a s') as [b s''| | |]; auto. eapply Rt; eauto.
  Qed.
  Lemma ok_content m : ok m -> ok (as_content m).
  Proof. intros H. apply ok_bind; [auto|]. intros v. apply ok_ret. Qed.
  Lemma ok_all ms : Forall ok ms -> ok (eval_all ms).
  Proof.
    induction 1 as [|m ms H _ IH]; cbn; [apply ok_ret|]. apply ok_bind; [apply ok_content; auto|]. intros t. apply ok_bind; [auto|]. intros ts. apply ok_ret.
  Qed.
  Lemma ok_reduce ms : Forall ok ms -> ok (reduce ms).
  Proof.
    induction 1 as [|m ms H _ IH]; cbn; [apply ok_ret|]. apply ok_bind; [auto|]. intros t. apply ok_bind; [auto|]. intros ts. apply ok_ret.
  Qed.

  Definition arg_ok (a : arg) : Prop := ok (run a) /\ ok (lazy a) /\ Forall ok (inner a).
  Definition cols_ok (l : list arg) : Prop := columns_of l = None \/ exists n, columns_of l = Some (Some (S n)).

  Lemma named_in k l a : named k l = Some a -> In a l.
  Proof. intros H. apply find_some in H. tauto. Qed.
  Lemma get_in k l pos a pos' : get k l pos = Some (a, pos') -> incl pos l -> In a l /\ incl pos' l.
  Proof.
    unfold get. intros H Hi. destruct (named k l) as [b|] eqn:E.
    - injection H as <- <-. split; [eapply named_in; eauto|auto].
    - destruct pos as [|b pos]; [discriminate|]. injection H as <- <-. split; [apply Hi; left; auto|intros x Hx; apply Hi; right; auto].
  Qed.
  Lemma positional_incl l : incl (positional l) l.
  Proof. intros x Hx. apply filter_In in Hx. tauto. Qed.

  Section Lib.
    Variable e : env.
    Hypothesis Hrc : docs_lib e = true -> forall b c m a x i, ok (render_code e b c m a x i).
    Variable l : list arg.
    Hypothesis Hl : Forall arg_ok l.
    Lemma arg_run a : In a l -> ok (run a).
    Proof. rewrite Forall_forall in Hl. intros H. apply Hl in H. destruct H; auto. Qed.
    Lemma arg_lazy a : In a l -> ok (lazy a).
    Proof. rewrite Forall_forall in Hl. intros H. apply Hl in H. destruct H as (_ & H & _); auto. Qed.
    Lemma arg_inner a : In a l -> Forall ok (inner a).
    Proof. rewrite Forall_forall in Hl. intros H. apply Hl in H. destruct H as (_ & _ & H); auto. Qed.

    Lemma ok_with_str k f : (forall s, ok (f s)) -> ok (with_str k l f).
    Proof. intros H. unfold with_str. destruct (get k l (positional l)) as [[a pos]|]; [|apply ok_fail]. destruct (as_str a); [auto|apply ok_fail]. Qed.
    Lemma ok_with_body f : ok (with_body l f).
    Proof.
      unfold with_body. destruct (get (lit "body") l (positional l)) as [[a pos]|] eqn:E; [|apply ok_fail]. apply get_in in E; [|apply positional_incl].
      apply ok_bind; [apply ok_content; apply arg_run; tauto|]. intros. apply ok_ret.
    Qed.
    Lemma ok_cells kind pos : incl pos l -> ok (table_cells kind pos).
    Proof.
      induction pos as [|a pos IH]; intros Hi; cbn [table_cells]; [apply ok_ret|].
      assert (Ha : In a l) by (apply Hi; left; auto). assert (Hi' : incl pos l) by (intros x Hx; apply Hi; right; auto).
      assert (Plain : ok (bind (as_content (run a)) (fun t => ret (@nil text, [t])))) by (apply ok_bind; [apply ok_content; apply arg_run; auto|intros; apply ok_ret]).
      apply ok_bind.
      - destruct (src a); try exact Plain. destruct c as [x|x y|]; try exact Plain.
        destruct (text_eqb x kind && text_eqb y (lit "header")).
        + apply ok_bind; [apply ok_all; apply arg_inner; auto|]. intros. apply ok_ret.
        + apply ok_bind; [apply ok_content; apply arg_run; auto|]. intros t0. destruct (text_eqb x kind && text_eqb y (lit "footer")); [|apply ok_ret].
          apply ok_bind; [apply ok_all; apply arg_inner; auto|]. intros. apply ok_ret.
      - intros x. apply ok_bind; [auto|]. intros. apply ok_ret.
    Qed.
    Lemma ok_table kind : PP \/ cols_ok l -> ok (table_fn kind l).
    Proof.
      intros H. unfold table_fn. destruct (columns_of l) as [[n|]|] eqn:E; [| |apply ok_fail].
      - apply ok_bind; [apply ok_cells; apply positional_incl|]. intros x. destruct (Nat.eqb_spec n 0) as [->|Hn]; [|apply ok_ret].
        intros s. destruct H as [H|[H|(n & H)]]; auto; congruence.
      - intros s. destruct H as [H|[H|(n & H)]]; auto; congruence.
    Qed.
    Lemma ok_lib x : PP \/ (x = lit "table" \/ x = lit "grid" -> cols_ok l) -> ok (library e x l).
    Proof.
      intros Hc. unfold library.
      destruct (text_eqb x (lit "link")).
      { unfold link_fn. destruct (get (lit "dest") l (positional l)) as [[a pos]|] eqn:E; [|apply ok_fail]. destruct (as_str a); [|apply ok_fail]. apply get_in in E; [|apply positional_incl].
        destruct (get (lit "body") l pos) as [[b pos']|] eqn:E'; [|apply ok_fail]. apply get_in in E'; [|tauto]. apply ok_bind; [apply ok_content; apply arg_run; tauto|]. intros. apply ok_ret. }
      destruct (text_eqb x (lit "kbd")); [apply ok_with_str; intros; apply ok_ret|].
      destruct (text_eqb x (lit "md-alter")).
      { unfold alter_fn. destruct (get (lit "left") l (positional l)) as [[a pos]|] eqn:E; [|apply ok_fail]. apply get_in in E; [|apply positional_incl].
        destruct (get (lit "right") l pos) as [[b pos']|] eqn:E'; [|apply ok_fail]. apply get_in in E'; [|tauto]. apply ok_bind; [apply ok_content; apply arg_lazy; tauto|]. intros. apply ok_ret. }
      destruct (text_eqb x (lit "image")).
      { apply ok_with_str. intros p. destruct (named (lit "alt") l) as [a|]; [|apply ok_ret]. destruct (as_str a); [apply ok_ret|apply ok_fail]. }
      destruct (text_eqb x (lit "figure")).
      { unfold figure_fn. destruct (get (lit "path") l (positional l)) as [[a pos]|] eqn:E; [|apply ok_fail]. apply get_in in E; [|apply positional_incl].
        apply ok_bind; [apply arg_run; tauto|]. intros body. apply ok_bind.
        - destruct (named (lit "caption") l) as [c|] eqn:Ec; [|apply ok_ret]. apply named_in in Ec. apply ok_bind; [apply ok_content; apply arg_run; auto|]. intros. apply ok_ret.
        - intros cap. destruct body; try apply ok_fail. destruct cap; apply ok_ret. }
      destruct (text_eqb x (lit "raw")); [apply ok_with_str; intros; apply ok_ret|].
      destruct (text_eqb x (lit "strike")); [apply ok_with_body|].
      destruct (text_eqb x (lit "pad")).
      { destruct (get (lit "path") l (positional l)) as [[a pos]|] eqn:E; [|apply ok_fail]. apply get_in in E; [|apply positional_incl]. apply arg_run. tauto. }
      do 5 (match goal with |- ok (if ?b then _ else _) => destruct b end; [apply ok_with_body|]).
      destruct (text_eqb x (lit "table")) eqn:Et; [apply text_eqb_ok in Et; apply ok_table; tauto|].
      destruct (text_eqb x (lit "grid")) eqn:Eg; [apply text_eqb_ok in Eg; apply ok_table; tauto|].
      destruct (docs_lib e) eqn:Ed; cbn [andb]; [|apply ok_fail]. destruct (text_eqb x (lit "example")); [|apply ok_fail].
      unfold example_fn. destruct (get (lit "body") l (positional l)) as [[a pos]|]; [|apply ok_fail]. destruct (src a); try apply ok_fail.
      destruct (split_example lines) as [d c]. destruct (remove_html e); [apply ok_ret|]. apply ok_bind; [apply Hrc; auto|]. intros. apply ok_ret.
    Qed.
  End Lib.

  Lemma cols_args l args : map key l = map fst args -> map src l = map snd args -> columns_ok args -> cols_ok l.
  Proof.
    unfold cols_ok, columns_of, columns_ok, named. revert args. generalize (lit "columns") as w. intros w. induction l as [|a l IH]; intros [|[k x] args] Hk Hs H; cbn in *; try discriminate.
    - right. exists 0. auto.
    - injection Hk as Hk1 Hk2. injection Hs as Hs1 Hs2. rewrite Hk1. destruct k as [k|].
      + destruct (text_eqb k w) eqn:E.
        * specialize (H _ _ eq_refl). rewrite Hs1. destruct x; auto.
          -- right. destruct (Z.ltb_spec z 0); [lia|]. exists (pred (Z.to_nat z)). do 2 f_equal. lia.
          -- right. exists (pred n). do 2 f_equal. lia.
        * eapply IH; eauto.
      + eapply IH; eauto.
  Qed.

  Section Eval.
    Variables (e : env) (inc : text -> step text) (P : node -> Prop).
    Hypothesis Hrc : docs_lib e = true -> forall b c m a x i, ok (render_code e b c m a x i).
    Hypothesis Hkeep : forall t, ok (keep t).
    Hypothesis Hlist : forall m, ok m -> ok (list_item e m).
    Hypothesis Hrender : forall b c i, ok (render e b c i).
    Hypothesis Hctx : forall t, ok (contextual e t).
    Hypothesis Hinc : forall t p, P (Include t p) -> ok (included (inc p)).
    Hypothesis Htab : PP \/ (forall n, P n -> good_tables n).

    Lemma ok_kept t m : ok m -> ok (kept t m).
    Proof. intros H. unfold kept. apply ok_bind; [auto|]. intros v. destruct v; try apply ok_ret. apply ok_bind; [auto|]. intros. apply ok_ret. Qed.

    Definition Good (n : node) : Prop :=
      everywhere P n ->
      ok (eval e inc n) /\ (match n with Closure _ b => ok (eval e inc b) | Call _ _ l => Forall (fun p => ok (eval e inc (snd p))) l | _ => True end).

    Lemma all_seq : forall l, (fix all l := match l with [] => True | x :: l' => everywhere P x /\ all l' end) l <-> Forall (everywhere P) l.
    Proof. induction l as [|x l IH]; [split; auto|]. rewrite IH. split; [intros (H1 & H2); constructor; auto|inversion 1; auto]. Qed.
    Lemma all_args : forall l, (fix all l := match l with [] => True | (_, x) :: l' => everywhere P x /\ all l' end) l <-> Forall (fun p : option text * node => everywhere P (snd p)) l.
    Proof. induction l as [|[k x] l IH]; [split; auto|]. rewrite IH. split; [intros (H1 & H2); constructor; auto|inversion 1; auto]. Qed.

    Lemma eval_ok : forall n, Good n.
    Proof.
      apply node_all; unfold Good; cbn [everywhere eval].
      - intros. split; [apply ok_ret|exact I].
      - intros. split; [apply ok_ret|exact I].
      - intros. split; [|exact I]. apply ok_bind; [auto|]. intros. apply ok_ret.
      - intros. split; [|exact I]. apply ok_kept. apply ok_ret.
      - intros. split; [apply ok_ret|exact I].
      - intros. split; [apply ok_ret|exact I].
      - intros. split; [apply ok_ret|exact I].
      - intros. split; [apply ok_ret|exact I].
      - intros. split; [apply ok_fail|exact I].
      - intros l IH (_ & H). split; [|exact I]. apply all_seq in H. apply ok_bind; [|intros; apply ok_ret]. apply ok_reduce. apply Forall_map. rewrite Forall_forall in *. intros x Hx. apply (IH x Hx); auto.
      - intros b IH (_ & H). split; [apply IH; auto|exact I].
      - intros t b IH (_ & H). split; [apply ok_kept; apply IH; auto|exact I].
      - intros b IH (_ & H). split; [|exact I]. apply ok_bind; [apply IH; auto|intros; apply ok_ret].
      - intros b IH (_ & H). split; [|exact I]. apply ok_bind; [apply IH; auto|intros; apply ok_ret].
      - intros k b IH (_ & H). split; [|exact I]. apply ok_bind; [apply IH; auto|intros; apply ok_ret].
      - intros. split; [apply ok_ret|exact I].
      - intros. split; [apply ok_ret|exact I].
      - intros b IH (_ & H). split; [apply Hlist; apply IH; auto|exact I].
      - intros k b IH (_ & H). split; [|exact I]. apply ok_bind; [apply IH; auto|intros; apply ok_ret].
      - intros b t _. split; [|exact I]. destruct (remove_html e); [apply ok_ret|apply Hrender].
      - intros t _. split; [apply Hctx|exact I].
      - intros t b IH (_ & H). split; [apply ok_kept; apply ok_ret|apply IH; auto].
      - intros t c args IH (HP & H). apply all_args in H.
        assert (HA : Forall (fun p => ok (eval e inc (snd p)) /\ (match snd p with Closure _ b => ok (eval e inc b) | Call _ _ l => Forall (fun p => ok (eval e inc (snd p))) l | _ => True end)) args).
        { rewrite Forall_forall in *. intros p Hp. apply IH; auto. }
        split; [|eapply Forall_impl; [|exact HA]; intros p Hp; apply Hp]. apply ok_kept. destruct c as [x| |]; try apply ok_ret.
        apply ok_lib; [exact Hrc| |].
        + apply Forall_map. eapply Forall_impl; [|exact HA]. intros [k a] (H1 & H2). unfold arg_ok. cbn [run lazy inner snd] in *. split; [auto|]. split.
          * destruct a; auto.
          * destruct a; auto. clear -H2. induction args0 as [|[k0 b] l IH]; cbn; [constructor|]. inversion H2; subst. destruct k0; cbn; [apply IH; auto|constructor; [auto|apply IH; auto]].
        + destruct Htab as [Hp|Ht]; [left; exact Hp|right]. intros Hx. apply Ht in HP. cbn in HP. eapply cols_args; [| |apply HP; exact Hx].
          * rewrite map_map. apply map_ext. intros [k a]. auto.
          * rewrite map_map. apply map_ext. intros [k a]. auto.
      - intros t p (HP & _). split; [eapply Hinc; eauto|exact I].
    Qed.
  End Eval.
End Ok.
