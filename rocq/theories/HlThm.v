(** C112: highlighting a loop marks its keyword and its breaks and continues. *)
From Coq Require Import List Arith Bool Lia.
From Verif Require Import HlModel HlSpec HlProof.
Import ListNotations.

(** With the cursor at the keyword of a loop or at one of its breaks or
    continues, or at the keyword of one of these, what is highlighted is the
    keyword of the loop and exactly its breaks and continues, each once; so it
    is the same from all of them. *)
Theorem C112_loop : forall leaf pre l kw, parsed l -> keyword_of l kw -> NoDup (nodes l) ->
  trigger (nkind leaf) = true -> chain (leaf :: pre ++ [l]) ->
  (forall m, In m (leaf :: pre) -> stops (nkind m) = false) ->
  exists hl, (forall rest, work (leaf :: pre ++ l :: rest) = Some (kw :: hl)) /\ NoDup (kw :: hl) /\
    (forall n, In n hl <-> jump_of l n).
Proof.
  intros leaf pre l kw HP HK HN HT HC HB. exists (jumps l). split; [|split].
  - intros rest. rewrite work_trigger by auto.
    assert (HF : find_loop ((leaf :: pre) ++ l :: rest) = Some l) by (apply find_up; [apply HK|auto]).
    rewrite app_comm_cons, (work_loop_eq _ _ HF), (find_first _ _ HK). reflexivity.
  - constructor; [|apply jumps_nodup; auto]. intros HI. apply jumps_ok in HI; auto.
    destruct HI as (_ & HJ). destruct HK as (_ & a & b & _ & HK & _). destruct (nkind kw); cbn in *; discriminate.
  - intros n. apply jumps_ok; auto.
Qed.
Print Assumptions C112_loop.

(** Every break and continue of the loop is a cursor from which this is the
    answer. *)
Theorem C112_same : forall l n, jump_of l n -> exists pre, chain (n :: pre ++ [l]) /\ trigger (nkind n) = true /\
  forall m, In m (n :: pre) -> stops (nkind m) = false.
Proof.
  intros l n (HI & HJ). destruct (inside_path _ _ HI) as (pre & HC & HB). exists pre. split; auto. split.
  - destruct (nkind n); cbn in *; auto; discriminate.
  - intros m [<-|Hm]; auto. destruct (nkind n); cbn in *; auto; discriminate.
Qed.
Print Assumptions C112_same.

(** A break that is in no loop, or has a closure or [context] between it and
    every loop around it, highlights nothing, and every other one something. *)
Theorem C112_none : forall leaf anc hash, trigger (nkind leaf) = true ->
  (forall l, In l (leaf :: anc) -> loop (nkind l) = true -> exists kw, keyword_of l kw) ->
  (highlight hash (leaf :: anc) = None <->
   forall pre l rest, leaf :: anc = pre ++ l :: rest -> loop (nkind l) = true ->
     exists m, In m pre /\ (nkind m = KClosure \/ nkind m = KContextual)).
Proof.
  intros leaf anc hash HT HK. rewrite <- find_none_boundary. unfold highlight. rewrite work_trigger by auto.
  destruct (find_loop (leaf :: anc)) as [l|] eqn:E.
  - rewrite (work_loop_eq _ _ E). apply find_loop_in in E. destruct E as (HI & HL).
    destruct (HK l HI HL) as (kw & Hkw). rewrite (find_first _ _ Hkw). cbn [app]. split; discriminate.
  - unfold work_loop. rewrite E. split; auto.
Qed.
Print Assumptions C112_none.

(** Nothing else is a cursor for highlights: without one of these keywords
    among the leaf and its ancestors there are none. *)
Theorem C112_only : forall anc hash, (forall n, In n anc -> trigger (nkind n) = false) -> highlight hash anc = None.
Proof.
  intros anc hash H. unfold highlight. assert (HW : work anc = None); [|rewrite HW; auto].
  induction anc as [|n anc IH]; auto. cbn [work].
  specialize (H n (or_introl eq_refl)) as HN.
  assert (HI : work anc = None) by (apply IH; intros m Hm; apply H; right; auto).
  destruct (nkind n); cbn in HN; auto; discriminate.
Qed.
Print Assumptions C112_only.

(** The range is that of the node, with the hash before it if there is one. *)
Theorem C112_range : forall hash n a b, nrange n = (a, b) ->
  (hash (a - 1) = true -> 0 < a -> annotate hash n = (a - 1, b)) /\
  (hash (a - 1) = false \/ a = 0 -> annotate hash n = (a, b)).
Proof.
  intros hash n a b E. unfold annotate. rewrite E. split.
  - intros -> H. apply Nat.ltb_lt in H. rewrite H. reflexivity.
  - intros [->| ->]; [rewrite andb_false_r|]; reflexivity.
Qed.
Print Assumptions C112_range.

(** [#for x in y { break; while z { continue }; break }], cursor at the
    second [break]. *)
Definition brk (a : nat) : node := Node KLoopBreak a (a + 5) [Node KBreak a (a + 5) []].
Definition ex_inner : node :=
  Node KWhileLoop 23 43 [Node KWhile 23 28 []; Node KOther 29 30 [];
    Node KOther 31 43 [Node KLoopContinue 33 41 [Node KContinue 33 41 []]]].
Definition ex_body : node := Node KOther 12 54 [brk 14; ex_inner; brk 46].
Definition ex_loop : node := Node KForLoop 1 54 [Node KFor 1 4 []; Node KOther 5 6 []; Node KKeyword 7 9 []; Node KOther 10 11 []; ex_body].

Example C112_nonvacuous :
  keyword_of ex_loop (Node KFor 1 4 []) /\ NoDup (nodes ex_loop) /\
  chain (Node KBreak 46 51 [] :: [brk 46; ex_body] ++ [ex_loop]) /\ jump_of ex_loop (brk 14) /\
  highlight (Nat.eqb 0) [Node KBreak 46 51 []; brk 46; ex_body; ex_loop] = Some [(0, 4); (46, 51); (14, 19)] /\
  parsed ex_loop.
Proof.
  split; [|split; [|split; [|split; [|split]]]].
  - split; [reflexivity|]. exists []. eexists. repeat split. intros c [].
  - repeat (constructor; [cbn; intuition discriminate|]). constructor.
  - cbn. intuition.
  - split; [|reflexivity]. eapply inside_deep with (c := ex_body); [cbn; auto 10|reflexivity|]. apply inside_child. cbn. auto.
  - vm_compute. reflexivity.
  - apply parsedb_ok. vm_compute. reflexivity.
Qed.
