(** Proofs about which definition gets which comments, and about modules. *)
From Coq Require Import List Arith NArith Bool Lia.
From Verif Require Import DocModel DocSpec DocProof.
Import ListNotations.

Section ExInd.
  Variable P : ex -> Prop.
  Hypothesis Hlet : forall d, P (XLet d None).
  Hypothesis Hlet' : forall d x, P x -> P (XLet d (Some x)).
  Hypothesis Hfun : forall d l, (forall x, In x l -> P x) -> P (XFun d l).
  Hypothesis Hseq : forall l, (forall x, In (inr x) l -> P x) -> P (XSeq l).
  Hypothesis Hother : forall l, (forall x, In x l -> P x) -> P (XOther l).
  Fixpoint ex_ind2 (x : ex) : P x.
  Proof.
    destruct x as [d [x|]|d l|l|l].
    - apply Hlet', ex_ind2.
    - apply Hlet.
    - apply Hfun. induction l as [|y l IH]; intros x Hx; [destruct Hx|]. destruct Hx as [<-|Hx]; [apply ex_ind2|apply IH, Hx].
    - apply Hseq. induction l as [|y l IH]; intros x Hx; [destruct Hx|]. destruct Hx as [E|Hx]; [|apply IH, Hx]. destruct y as [t|y]; [discriminate|]. injection E as <-. apply ex_ind2.
    - apply Hother. induction l as [|y l IH]; intros x Hx; [destruct Hx|]. destruct Hx as [<-|Hx]; [apply ex_ind2|apply IH, Hx].
  Defined.
End ExInd.

Fixpoint each (l : list ex) (s : st) : st := match l with [] => s | y :: l' => each l' (walk y s) end.
Fixpoint seqs (l : list (tok + ex)) (s : st) : st :=
  match l with
  | [] => s
  | inr y :: l' => let '(m, o) := walk y s in seqs l' (reset m, o)
  | inl t :: l' => let '(m, b) := process t (fst s) in seqs l' (if b then reset m else m, snd s)
  end.
Lemma walk_fun d l s : walk (XFun d l) s = each l (take d s).
Proof. cbn. generalize (take d s). induction l as [|x l IH]; intros s'; cbn; auto. Qed.
Lemma walk_other l s : walk (XOther l) s = each l s.
Proof. cbn. revert s. induction l as [|x l IH]; intros s'; cbn; auto. Qed.
Lemma walk_seq l s : walk (XSeq l) s = seqs l (reset (fst s), snd s).
Proof.
  cbn. generalize (reset (fst s), snd s). induction l as [|[t|x] l IH]; intros s'; cbn; auto.
Qed.

(** The comments at hand after the expression. *)
Definition after (x : ex) (cs cs' : list raw) : Prop :=
  (idle x /\ (forall q, ~ last_seq x q) /\ (forall d, ~ taker x d) /\ cs' = cs) \/
  (~ idle x /\ (exists q, last_seq x q) /\ forall q, last_seq x q -> kept q cs') \/
  (~ idle x /\ (forall q, ~ last_seq x q) /\ cs' = []).
Definition gets (cs : list raw) (t : text) : Prop := cs <> [] /\ doc_text cs t.
Definition walked (x : ex) : Prop :=
  forall m o, strict m = false -> exists m' new, walk x (m, o) = (m', new ++ o) /\ strict m' = false /\
    (forall d t, In (d, t) new <-> (taker x d /\ gets (comments m) t) \/ has_docs x d t) /\ after x (comments m) (comments m').

(** The same of a list of expressions. *)
Definition first_taker (l : list ex) (d : nat) : Prop := exists l1 x l2, l = l1 ++ x :: l2 /\ Forall idle l1 /\ taker x d.
Definition final_seq (l : list ex) (q : list (tok + ex)) : Prop := exists l1 x l2, l = l1 ++ x :: l2 /\ last_seq x q /\ Forall idle l2.
Definition after_all (l : list ex) (cs cs' : list raw) : Prop :=
  (Forall idle l /\ (forall q, ~ final_seq l q) /\ (forall d, ~ first_taker l d) /\ cs' = cs) \/
  (~ Forall idle l /\ (exists q, final_seq l q) /\ forall q, final_seq l q -> kept q cs') \/
  (~ Forall idle l /\ (forall q, ~ final_seq l q) /\ cs' = []).
Definition in_list (l : list ex) (d : nat) (t : text) : Prop :=
  (exists cs, leaks l d cs /\ gets cs t) \/ exists x, In x l /\ has_docs x d t.

Lemma idle_no_last x q : idle x -> ~ last_seq x q.
Proof.
  revert x q. induction x as [d|d x IH|d l IH|l IH|l IH] using ex_ind2; intros q Hi Hl; inversion Hi; subst.
  inversion Hl; subst. eapply (IH x); eauto; [apply in_elt|]. rewrite Forall_forall in H0. apply H0. apply in_elt.
Qed.
Lemma idle_no_taker x d : idle x -> ~ taker x d.
Proof.
  revert x d. induction x as [d'|d' x IH|d' l IH|l IH|l IH] using ex_ind2; intros d Hi Hl; inversion Hi; subst.
  inversion Hl; subst. eapply (IH x); eauto; [apply in_elt|]. rewrite Forall_forall in H0. apply H0. apply in_elt.
Qed.
Lemma first_cons x l d : first_taker (x :: l) d <-> taker x d \/ (idle x /\ first_taker l d).
Proof.
  split.
  - intros (l1 & y & l2 & E & Hi & Ht). destruct l1 as [|z l1]; cbn in E; injection E as <- ->; auto.
    inversion Hi; subst. right. split; auto. exists l1, y, l2. auto.
  - intros [H|(Hi & l1 & y & l2 & -> & Hl & Ht)].
    + exists [], x, l. auto.
    + exists (x :: l1), y, l2. split; auto.
Qed.
Lemma final_cons x l q : final_seq (x :: l) q <-> (last_seq x q /\ Forall idle l) \/ final_seq l q.
Proof.
  split.
  - intros (l1 & y & l2 & E & Hi & Ht). destruct l1 as [|z l1]; cbn in E; injection E as <- ->; auto.
    right. exists l1, y, l2. auto.
  - intros [(H & Hl)|(l1 & y & l2 & -> & Hl & Ht)].
    + exists [], x, l. auto.
    + exists (x :: l1), y, l2. split; auto.
Qed.
Lemma leaks_cons x l d cs : leaks (x :: l) d cs <-> (exists q, last_seq x q /\ kept q cs /\ first_taker l d) \/ leaks l d cs.
Proof.
  split.
  - intros (l1 & y & m & z & l2 & q & E & H1 & H2 & H3 & H4). destruct l1 as [|w l1]; cbn in E; injection E as <- ->.
    + left. exists q. split; auto. split; auto. exists m, z, l2. auto.
    + right. exists l1, y, m, z, l2, q. auto.
  - intros [(q & H1 & H2 & l1 & y & l2 & -> & Hi & Ht)|(l1 & y & m & z & l2 & q & -> & H1 & H2 & H3 & H4)].
    + exists [], x, l1, y, l2, q. auto.
    + exists (x :: l1), y, m, z, l2, q. split; auto.
Qed.

Lemma each_ok : forall l, (forall x, In x l -> walked x) ->
  forall m o, strict m = false -> exists m' new, each l (m, o) = (m', new ++ o) /\ strict m' = false /\
    (forall d t, In (d, t) new <-> (first_taker l d /\ gets (comments m) t) \/ in_list l d t) /\ after_all l (comments m) (comments m').
Proof.
  induction l as [|x l IH]; intros HW m o Hs.
  - exists m, []. split; auto. split; auto. split.
    + intros d t. split; [intros []|]. intros [((l1 & x & l2 & E & _) & _)|[(cs & (l1 & x & m' & y & l2 & q & E & _) & _)|(x & [] & _)]]; destruct l1; discriminate.
    + left. split; [constructor|]. split; [|split; auto]; intros q (l1 & x & l2 & E & _); destruct l1; discriminate.
  - destruct (HW x (or_introl eq_refl) m o Hs) as (m1 & new1 & E1 & Hs1 & Hn1 & Ha1).
    destruct (IH (fun y Hy => HW y (or_intror Hy)) m1 (new1 ++ o) Hs1) as (m2 & new2 & E2 & Hs2 & Hn2 & Ha2).
    exists m2, (new2 ++ new1). cbn [each]. rewrite E1, E2, app_assoc. split; auto. split; auto. split.
    + intros d t. rewrite in_app_iff, Hn1, Hn2, first_cons. unfold in_list. split.
      * intros [[(Hf & Hg)|[(cs & Hl & Hg)|(y & Hy & Hd)]]|[(Ht & Hg)|Hd]].
        -- destruct Ha1 as [(Hi & _ & _ & E)|[(_ & (q & Hq) & Hk)|(_ & _ & E)]].
           ++ rewrite E in Hg. left. split; auto.
           ++ right. left. exists (comments m1). split; auto. apply leaks_cons. left. exists q. auto.
           ++ rewrite E in Hg. destruct Hg as (Hg & _). congruence.
        -- right. left. exists cs. split; auto. apply leaks_cons. auto.
        -- right. right. exists y. split; auto. right; auto.
        -- left. auto.
        -- right. right. exists x. split; auto. left; auto.
      * intros [([Ht|(Hi & Hf)] & Hg)|[(cs & Hl & Hg)|(y & [<-|Hy] & Hd)]].
        -- right. left. auto.
        -- destruct Ha1 as [(_ & _ & _ & E)|[(Hn & _)|(Hn & _)]]; try contradiction. left. left. rewrite E. auto.
        -- apply leaks_cons in Hl. destruct Hl as [(q & Hq & Hk & Hf)|Hl].
           ++ destruct Ha1 as [(_ & Hn & _)|[(_ & _ & Hkk)|(_ & Hn & _)]]; try (exfalso; eapply Hn; eauto; fail).
              assert (cs = comments m1) by (eapply kept_fun; eauto). subst cs. left. left. auto.
           ++ left. right. left. eauto.
        -- right. right. auto.
        -- left. right. right. eauto.
    + destruct Ha2 as [(Hi & Hf & Ht & E)|[(Hn & (q & Hq) & Hk)|(Hn & Hf & E)]].
      * rewrite E. destruct Ha1 as [(Hi1 & Hf1 & Ht1 & E1')|[(Hn1' & (q & Hq) & Hk)|(Hn1' & Hf1 & E1')]].
        -- left. split; auto. split; [|split; auto].
           ++ intros q H. apply final_cons in H. destruct H as [(H & _)|H]; [eapply Hf1|eapply Hf]; eauto.
           ++ intros d H. apply first_cons in H. destruct H as [H|(_ & H)]; [eapply Ht1|eapply Ht]; eauto.
        -- right. left. split; [intros H; inversion H; auto|]. split.
           ++ exists q. apply final_cons. auto.
           ++ intros q' H. apply final_cons in H. destruct H as [(H & _)|H]; auto. exfalso. eapply Hf; eauto.
        -- right. right. split; [intros H; inversion H; auto|]. split; auto.
           intros q H. apply final_cons in H. destruct H as [(H & _)|H]; [eapply Hf1|eapply Hf]; eauto.
      * right. left. split; [intros H; inversion H; auto|]. split.
        -- exists q. apply final_cons. auto.
        -- intros q' H. apply final_cons in H. destruct H as [(_ & H)|H]; auto. contradiction.
      * right. right. split; [intros H; inversion H; auto|]. split; auto.
        intros q H. apply final_cons in H. destruct H as [(_ & H)|H]; [contradiction|eapply Hf; eauto].
Qed.

(** A sequence, after a part of it. *)
Definition in_seq (pre l : list (tok + ex)) (d : nat) (t : text) : Prop :=
  (exists p x post cs, l = p ++ inr x :: post /\ kept (pre ++ p) cs /\ taker x d /\ gets cs t) \/ exists x, In (inr x) l /\ has_docs x d t.
Lemma seqs_ok : forall l, (forall x, In (inr x) l -> walked x) ->
  forall pre m o, strict m = false -> held pre (comments m) (newlines m) ->
  exists m' new, seqs l (m, o) = (m', new ++ o) /\ strict m' = false /\
    (forall d t, In (d, t) new <-> in_seq pre l d t) /\ kept (pre ++ l) (comments m').
Proof.
  induction l as [|[k|x] l IH]; intros HW pre m o Hs Hh.
  - exists m, []. split; auto. split; auto. split.
    + intros d t. split; [intros []|]. intros [(p & x & post & cs & E & _)|(x & [] & _)]. destruct p; discriminate.
    + rewrite app_nil_r. eapply held_kept; eauto.
  - cbn [seqs fst snd]. pose proof (held_tok pre m k Hs Hh) as HT. destruct (process k m) as (m1, b) eqn:Ep. cbn in HT. destruct HT as (Hs1 & Hh1).
    destruct (IH (fun y Hy => HW y (or_intror Hy)) _ _ o Hs1 Hh1) as (m2 & new & E2 & Hs2 & Hn & Hk). exists m2, new. split; auto. split; auto.
    rewrite <- app_assoc in Hk. split; auto. intros d t. rewrite Hn. unfold in_seq. split.
    + intros [(p & y & post & cs & -> & H1 & H2)|(y & Hy & Hd)].
      * left. exists (inl k :: p), y, post, cs. rewrite <- app_assoc in H1. auto.
      * right. exists y. split; auto. right; auto.
    + intros [(p & y & post & cs & E & H1 & H2)|(y & [E|Hy] & Hd)]; [|discriminate|eauto].
      left. destruct p as [|z p]; cbn in E; [discriminate|]. injection E as <- ->. exists p, y, post, cs. rewrite <- app_assoc. auto.
  - cbn [seqs]. destruct (HW x (or_introl eq_refl) m o Hs) as (m1 & new1 & E1 & Hs1 & Hn1 & _). rewrite E1.
    assert (Hs1' : strict (reset m1) = false) by auto.
    destruct (IH (fun y Hy => HW y (or_intror Hy)) (pre ++ [inr x]) (reset m1) (new1 ++ o) Hs1') as (m2 & new2 & E2 & Hs2 & Hn2 & Hk).
    { apply held_ex. }
    exists m2, (new2 ++ new1). rewrite E2, app_assoc. split; auto. split; auto. rewrite <- app_assoc in Hk. split; auto.
    intros d t. rewrite in_app_iff, Hn1, Hn2. unfold in_seq. split.
    + intros [[(p & y & post & cs & -> & H1 & H2)|(y & Hy & Hd)]|[(Ht & Hg)|Hd]].
      * left. exists (inr x :: p), y, post, cs. rewrite <- app_assoc in H1. auto.
      * right. exists y. split; auto. right; auto.
      * left. exists [], x, l, (comments m). split; auto. rewrite app_nil_r. split; auto. eapply held_kept; eauto.
      * right. exists x. split; auto. left; auto.
    + intros [(p & y & post & cs & E & H1 & H2 & H3)|(y & [E|Hy] & Hd)].
      * destruct p as [|z p]; cbn in E; injection E as <- ->.
        -- right. left. rewrite app_nil_r in H1. assert (cs = comments m) by (eapply kept_fun; eauto; eapply held_kept; eauto). subst. auto.
        -- left. left. exists p, y, post, cs. rewrite <- app_assoc. auto.
      * injection E as <-. auto.
      * left. eauto.
Qed.

Lemma take_ok d m o : strict m = false -> exists m' new, take d (m, o) = (m', new ++ o) /\ strict m' = false /\ comments m' = [] /\
  forall d' t, In (d', t) new <-> d' = d /\ gets (comments m) t.
Proof.
  intros Hs. unfold take. cbn [fst snd]. rewrite collect_ok. destruct (comments m) as [|c cs] eqn:E.
  - exists m, []. split; auto. split; auto. split; auto. intros d' t. split; [intros []|]. intros (_ & Hg & _). congruence.
  - eexists _, [(d, _)]. split; [reflexivity|]. split; auto. split; auto. intros d' t. cbn [In]. split.
    + intros [H|[]]. injection H as <- <-. split; auto. split; [discriminate|]. apply doc_text_ok; [discriminate|]. auto.
    + intros (-> & Hg & Hd). left. f_equal. apply doc_text_ok in Hd; auto.
Qed.

Lemma walk_ok : forall x, walked x.
Proof.
  induction x as [d|d x IH|d l IH|l IH|l IH] using ex_ind2; intros m o Hs.
  - destruct (take_ok d m o Hs) as (m1 & new & E & Hs1 & Hc & Hn). exists m1, new. cbn. split; auto. split; auto. split.
    + intros d' t. rewrite Hn. split.
      * intros (-> & Hg). left. split; auto. constructor.
      * intros [(Ht & Hg)|Hd]; [|inversion Hd]. inversion Ht; subst. auto.
    + right. right. split; [intros H; inversion H|]. split; auto. intros q H. inversion H.
  - destruct (take_ok d m o Hs) as (m1 & new & E & Hs1 & Hc & Hn). destruct (IH m1 (new ++ o) Hs1) as (m2 & new2 & E2 & Hs2 & Hn2 & Ha).
    exists m2, (new2 ++ new). cbn [walk]. rewrite E, E2, app_assoc. split; auto. split; auto. split.
    + intros d' t. rewrite in_app_iff, Hn, Hn2. split.
      * intros [[(_ & Hg & _)|Hd]|(-> & Hg)]; [congruence| |].
        -- right. constructor. auto.
        -- left. split; auto. constructor.
      * intros [(Ht & Hg)|Hd].
        -- inversion Ht; subst. auto.
        -- inversion Hd; subst. auto.
    + destruct Ha as [(Hi & Hf & Ht & E')|[(Hi & (q & Hq) & Hk)|(Hi & Hf & E')]].
      * right. right. split; [intros H; inversion H|]. split; [|congruence]. intros q H. inversion H; subst. eapply Hf; eauto.
      * right. left. split; [intros H; inversion H|]. split; [exists q; constructor; auto|]. intros q' H. inversion H; subst. auto.
      * right. right. split; [intros H; inversion H|]. split; [|congruence]. intros q H. inversion H; subst. eapply Hf; eauto.
  - rewrite walk_fun. destruct (take_ok d m o Hs) as (m1 & new & E & Hs1 & Hc & Hn). destruct (each_ok l IH m1 (new ++ o) Hs1) as (m2 & new2 & E2 & Hs2 & Hn2 & Ha).
    exists m2, (new2 ++ new). rewrite E, E2, app_assoc. split; auto. split; auto. split.
    + intros d' t. rewrite in_app_iff, Hn, Hn2. split.
      * intros [[(_ & Hg & _)|[(cs & Hl & Hg & Ht)|(y & Hy & Hd)]]|(-> & Hg)]; [congruence| | |].
        -- right. eapply docs_fun; eauto.
        -- right. eapply docs_in_fun; eauto.
        -- left. split; auto. constructor.
      * intros [(Ht & Hg)|Hd].
        -- inversion Ht; subst. auto.
        -- left. right. unfold in_list, gets. inversion Hd; subst; eauto.
    + destruct Ha as [(Hi & Hf & Ht & E')|[(Hi & (q & Hq) & Hk)|(Hi & Hf & E')]].
      * right. right. split; [intros H; inversion H|]. split; [|congruence]. intros q H. inversion H; subst. eapply Hf. eexists _, _, _. eauto.
      * right. left. split; [intros H; inversion H|]. split.
        -- destruct Hq as (l1 & y & l2 & -> & H1 & H2). exists q. constructor; auto.
        -- intros q' H. inversion H; subst. apply Hk. eexists _, _, _. eauto.
      * right. right. split; [intros H; inversion H|]. split; [|congruence]. intros q H. inversion H; subst. eapply Hf. eexists _, _, _. eauto.
  - rewrite walk_seq. cbn [fst snd]. assert (Hs' : strict (reset m) = false) by auto.
    destruct (seqs_ok l IH [] (reset m) o Hs' held_nil) as (m1 & new & E & Hs1 & Hn & Hk). exists m1, new. split; auto. split; auto. split.
    + intros d t. rewrite Hn. split.
      * intros [(p & x & post & cs & -> & H1 & H2 & H3 & H4)|(x & Hx & Hd)]; right.
        -- eapply docs_seq; eauto.
        -- eapply docs_in_seq; eauto.
      * intros [(Ht & _)|Hd]; [inversion Ht|]. unfold in_seq, gets. inversion Hd; subst.
        -- left. eexists _, _, _, _. eauto.
        -- right. eauto.
    + right. left. split; [intros H; inversion H|]. split; [exists l; constructor|]. intros q H. inversion H; subst. auto.
  - rewrite walk_other. destruct (each_ok l IH m o Hs) as (m2 & new2 & E2 & Hs2 & Hn2 & Ha).
    exists m2, new2. split; auto. split; auto. split.
    + intros d' t. rewrite Hn2. split.
      * intros [((l1 & y & l2 & -> & H1 & H2) & Hg)|[(cs & Hl & Hg & Ht)|(y & Hy & Hd)]].
        -- left. split; auto. constructor; auto.
        -- right. eapply docs_other; eauto.
        -- right. eapply docs_in_other; eauto.
      * intros [(Ht & Hg)|Hd].
        -- left. split; auto. inversion Ht; subst. eexists _, _, _. eauto.
        -- right. unfold in_list, gets. inversion Hd; subst; eauto.
    + destruct Ha as [(Hi & Hf & Ht & E')|[(Hi & (q & Hq) & Hk)|(Hi & Hf & E')]].
      * left. split; [constructor; auto|]. split; [|split; auto].
        -- intros q H. apply (Hf q). inversion H; subst. eexists _, _, _. eauto.
        -- intros d H. apply (Ht d). inversion H; subst. eexists _, _, _. eauto.
      * right. left. split; [intros H; inversion H; auto|]. split.
        -- destruct Hq as (l1 & y & l2 & -> & H1 & H2). exists q. constructor; auto.
        -- intros q' H. inversion H; subst. apply Hk. eexists _, _, _. eauto.
      * right. right. split; [intros H; inversion H; auto|]. split; auto. intros q H. inversion H; subst. eapply Hf. eexists _, _, _. eauto.
Qed.

Lemma documented_ok l d t : In (d, t) (documented l) <-> has_docs (XSeq l) d t.
Proof.
  unfold documented. rewrite <- in_rev.
  destruct (walk_ok (XSeq l) {| comments := []; newlines := 0; strict := false |} [] eq_refl) as (m' & new & E & _ & Hn & _).
  rewrite E. cbn [snd]. rewrite app_nil_r, Hn. split; auto. intros [(H & _)|H]; auto. inversion H.
Qed.

(** * Modules *)

Lemma head_ok l : exists rest, l = map inl (head_trivia l) ++ rest /\ Forall (fun t => is_trivia (inl t)) (head_trivia l) /\
  (rest = [] \/ exists i r, rest = i :: r /\ ~ is_trivia i).
Proof.
  induction l as [|[t|x] l IH]; cbn.
  - exists []. auto.
  - destruct (trivia t) eqn:E.
    + destruct IH as (rest & H1 & H2 & H3). exists rest. cbn. split; [f_equal; auto|]. split; auto. constructor; auto. destruct t; cbn in *; auto; discriminate.
    + exists (inl t :: l). cbn. split; auto. split; auto. right. exists (inl t), l. split; auto. destruct t; cbn in *; auto; congruence.
  - exists (inr x :: l). cbn. split; auto. split; auto. right. exists (inr x), l. auto.
Qed.
Definition doc_noted (t : tok) : list raw :=
  match t with TLine s => match strip_prefix [SLASH; SLASH; SLASH] s with Some _ => [RLine s] | None => [] end | _ => [] end.
Lemma doc_noted_ok t : doc_notes [t] (doc_noted t).
Proof.
  destruct t; cbn [doc_noted]; try (apply doc_no; [discriminate|constructor]).
  destruct (strip_prefix [SLASH; SLASH; SLASH] s) as [u|] eqn:E.
  - apply strip_prefix_ok in E. subst. apply doc_line. constructor.
  - apply doc_no; [|constructor]. intros u H. injection H as ->. rewrite strip_prefix_none in E. eapply E. reflexivity.
Qed.
Lemma doc_app : forall a ca b cb, doc_notes a ca -> doc_notes b cb -> doc_notes (a ++ b) (ca ++ cb).
Proof. induction 1; intros Hb; cbn; [auto|constructor; auto..]. Qed.
Lemma doc_fun : forall l cs, doc_notes l cs -> forall cs', doc_notes l cs' -> cs = cs'.
Proof.
  induction 1; intros cs' H'; inversion H'; subst; auto; try (f_equal; auto; fail);
    exfalso; match goal with h : forall s, _ <> _ |- _ => solve [eapply h; reflexivity] end.
Qed.

Lemma group_ok : forall l g m, strict m = true -> count 0 g = Some (newlines m) -> doc_notes g (comments m) ->
  exists g' r, l = g' ++ r /\ goes_on (g ++ g') /\ doc_notes (g ++ g') (comments (first_group l m)) /\
    (r = [] \/ exists t r', r = t :: r' /\ ~ goes_on ((g ++ g') ++ [t])).
Proof.
  induction l as [|t l IH]; intros g m Hs Hc Hn.
  - exists [], []. rewrite !app_nil_r. split; auto. split; [apply count_ok; eauto|]. split; auto.
  - assert (Hstop : forall m', comments m' = comments m -> (forall k, count 0 (g ++ [t]) <> Some k) ->
      exists g' r, t :: l = g' ++ r /\ goes_on (g ++ g') /\ doc_notes (g ++ g') (comments m') /\ (r = [] \/ exists t r', r = t :: r' /\ ~ goes_on ((g ++ g') ++ [t]))).
    { intros m' Em Hk. exists [], (t :: l). rewrite app_nil_r. split; auto. split; [apply count_ok; eauto|]. rewrite Em. split; auto.
      right. exists t, l. split; auto. intros G. apply count_ok in G. destruct G as (k & G). eapply Hk; eauto. }
    assert (Hgo : forall m', strict m' = true -> count 0 (g ++ [t]) = Some (newlines m') -> comments m' = comments m ++ doc_noted t ->
      exists g' r, t :: l = g' ++ r /\ goes_on (g ++ g') /\ doc_notes (g ++ g') (comments (first_group l m')) /\ (r = [] \/ exists t r', r = t :: r' /\ ~ goes_on ((g ++ g') ++ [t]))).
    { intros m' Hs' Hk Em. destruct (IH (g ++ [t]) m' Hs' Hk) as (g' & r & H1 & H2 & H3 & H4).
      - rewrite Em. apply doc_app; auto. apply doc_noted_ok.
      - exists (t :: g'), r. assert (Ea : (g ++ [t]) ++ g' = g ++ t :: g') by (rewrite <- app_assoc; auto). rewrite Ea in *.
        split; [rewrite H1; auto|]. split; auto. }
    rewrite count_app, Hc in *. cbn [first_group]. destruct t as [|s| |s|s|b]; cbn [process].
    + apply Hgo; cbn; auto. rewrite app_nil_r. auto.
    + cbn [count] in *. destruct (existsb (N.eqb NL) s).
      * assert (L : newlines m <= 1) by (eapply count_le; [|exact Hc]; lia). destruct (newlines m) as [|[|n]] eqn:En; [| |lia].
        -- cbn [Nat.ltb Nat.leb]. apply Hgo; cbn; auto. rewrite app_nil_r. auto.
        -- cbn [Nat.ltb Nat.leb]. apply Hstop; auto. discriminate.
      * assert (L : newlines m <= 1) by (eapply count_le; [|exact Hc]; lia). destruct (newlines m) as [|[|n]] eqn:En; [| |lia]; cbn [Nat.ltb Nat.leb]; apply Hgo; cbn; auto; rewrite app_nil_r; auto.
    + apply Hstop; auto. discriminate.
    + apply Hgo; cbn [comments newlines strict doc_noted]; auto. rewrite Hs. cbn [negb orb].
      destruct (strip_prefix [SLASH; SLASH; SLASH] s); rewrite ?app_nil_r; auto.
    + apply Hgo; cbn; auto. rewrite Hs, app_nil_r. auto.
    + apply Hstop; auto. discriminate.
Qed.

Lemma top_fun l g g' : top_group l g -> top_group l g' -> length g <= length g'.
Proof.
  intros (r & E & Hg & Ht & Hr) (r' & E' & Hg' & Ht' & Hr'). destruct (le_lt_dec (length g) (length g')) as [|Hlt]; auto. exfalso.
  assert (X : exists t u, g = g' ++ t :: u /\ r' = inl t :: map inl u ++ r).
  { clear -E E' Hlt. subst l. revert g' r' E' Hlt. induction g as [|x g IH]; intros g' r' E Hlt; [cbn in Hlt; lia|].
    destruct g' as [|y g']; cbn in E.
    - exists x, g. cbn. auto.
    - injection E as -> E. destruct (IH g' r' E) as (t & u & -> & ->); [cbn in Hlt; lia|]. exists t, u. auto. }
  destruct X as (t & u & -> & ->). destruct Hr' as [?|(i & q & E2 & Hi)]; [discriminate|]. injection E2 as <- <-.
  destruct Hi as [Hi|(t' & E2 & Hi)].
  - apply Hi. apply Forall_app in Ht. destruct Ht as (_ & Ht). inversion Ht; auto.
  - injection E2 as <-. apply Hi. apply (goes_prefix (g' ++ [t]) u). rewrite <- app_assoc. auto.
Qed.

Lemma module_ok l t : module_docs l = Some t <-> exists g cs, top_group l g /\ doc_notes g cs /\ cs <> [] /\ doc_text cs t.
Proof.
  unfold module_docs. set (m0 := {| comments := []; newlines := 0; strict := true |}).
  destruct (group_ok (head_trivia l) [] m0 eq_refl eq_refl (doc_nil)) as (g & r & E & Hg & Hn & Hr). cbn [app] in *.
  destruct (head_ok l) as (rest & E' & Ht & Hrest).
  assert (Htop : top_group l g).
  { exists (map inl r ++ rest). rewrite E' at 1. rewrite E at 1. rewrite map_app, <- app_assoc. split; auto. split; auto. rewrite E in Ht. apply Forall_app in Ht. destruct Ht as (Ht & _). split; auto.
    destruct Hr as [->|(t0 & r' & -> & Hr)].
    - cbn. destruct Hrest as [->|(i & r2 & -> & Hi)]; auto. right. exists i, r2. auto.
    - right. exists (inl t0), (map inl r' ++ rest). split; auto. right. exists t0. auto. }
  rewrite collect_ok. destruct (comments (first_group (head_trivia l) m0)) as [|c cs] eqn:Ec; cbn [fst].
  - split; [discriminate|]. intros (g' & cs' & H1 & H2 & H3 & _). exfalso.
    assert (g = g').
    { assert (L1 := top_fun _ _ _ Htop H1). assert (L2 := top_fun _ _ _ H1 Htop). destruct Htop as (q & F & _), H1 as (q' & F' & _). rewrite F in F'. clear -F' L1 L2.
      revert g' F' L1 L2. induction g as [|x g IH]; intros [|y g'] F L1 L2; cbn in *; try lia; auto. injection F as -> F. f_equal. apply IH; auto; lia. }
    subst g'. apply H3. symmetry. eapply doc_fun; eauto.
  - split.
    + intros H. injection H as <-. exists g, (c :: cs). split; auto. split; auto. split; [discriminate|]. apply doc_text_ok; [discriminate|]. auto.
    + intros (g' & cs' & H1 & H2 & H3 & H4). f_equal. 
      assert (g = g').
      { assert (L1 := top_fun _ _ _ Htop H1). assert (L2 := top_fun _ _ _ H1 Htop). destruct Htop as (q & F & _), H1 as (q' & F' & _). rewrite F in F'. clear -F' L1 L2.
        revert g' F' L1 L2. induction g as [|x g IH]; intros [|y g'] F L1 L2; cbn in *; try lia; auto. injection F as -> F. f_equal. apply IH; auto; lia. }
      subst g'. assert (cs' = c :: cs) by (eapply doc_fun; eauto). subst cs'. apply doc_text_ok; auto.
Qed.
