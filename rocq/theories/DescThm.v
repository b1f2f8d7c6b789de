(** Theorems about the description of types (C182). *)
From Coq Require Import List Arith Bool Lia.
From Verif Require Import DescModel DescSpec DescProof.
Import ListNotations.

(** C182: the description of a type is its own text, or its alternatives in order, each once, the first function among them; whatever was described before, nothing of it shows. *)
Theorem C182_exact : forall t d, described t d <-> repr t = d.
Proof.
  intros t d. split; [|intros <-; apply repr_described]. intros H. exact (described_one (S (size t)) t _ _ (Nat.lt_succ_diag_r _) (repr_described t) H).
Qed.
Print Assumptions C182_exact.
(** C182: what stands between: the first text as it is, each further one after one separator. *)
Theorem C182_bars : forall sep l, join sep l = match l with [] => [] | w :: r => w ++ concat (map (app sep) r) end.
Proof.
  intros sep [|w r]; [reflexivity|]. revert w. induction r as [|v r IH]; intros w; [cbn; now rewrite app_nil_r|].
  change (join sep (w :: v :: r)) with (w ++ sep ++ join sep (v :: r)). rewrite IH. cbn [map concat]. now rewrite <- app_assoc.
Qed.
Print Assumptions C182_bars.
Lemma same t u : (forall w, ~ plain t w) -> (forall w, ~ plain u w) -> (forall w, says t w <-> says u w) -> (exists fs, functions t fs /\ functions u fs) -> repr t = repr u.
Proof.
  intros N M S (fs & F & G). symmetry. apply C182_exact. pose proof (repr_described t) as D. inversion D as [? w P|? ls cs N' C R I E]; subst; [now apply N in P|].
  eapply (D_alts u ls cs); [exact M| |exact R|intros w; now rewrite I, S].
  inversion C as [? F'|? p m o b fs' ps ns rs q F' Hp Hn Hr Hb]; subst; pose proof (functions_one _ _ _ F F') as ->; [now constructor|]. eapply C_first; eassumption.
Qed.
Lemma functions_all ts : exists fss, Forall2 functions ts fss.
Proof. induction ts as [|t r [fss IH]]; [exists []; constructor|]. destruct (all_ok t [] []) as (_ & ff & _ & _ & F & _). exists (ff :: fss). now constructor. Qed.
(** C182: unions in unions, and bounds, are described as one union of all. *)
Theorem C182_flat : forall a b c, repr (Union (a ++ Union b :: c)) = repr (Union (a ++ b ++ c)) /\ repr (Let a b) = repr (Union (a ++ b)).
Proof.
  intros a b c. split; apply same; try (intros w H; now inversion H).
  - intros w. split; intros H; inversion H as [? t ? I Q| | |]; subst.
    + apply in_app_iff in I as [I|[<-|I]]; [econstructor; [apply in_app_iff; left; exact I|exact Q]| |econstructor; [rewrite !in_app_iff; right; right; exact I|exact Q]].
      destruct Q as [Q|Q]; [inversion Q|]. inversion Q as [? u ? J Q'| | |]; subst. econstructor; [rewrite !in_app_iff; right; left; exact J|exact Q'].
    + rewrite !in_app_iff in I. destruct I as [I|[I|I]].
      * econstructor; [apply in_app_iff; left; exact I|exact Q].
      * econstructor; [apply in_app_iff; right; left; reflexivity|]. right. econstructor; eassumption.
      * econstructor; [apply in_app_iff; right; right; exact I|exact Q].
  - destruct (functions_all a) as [fa Fa], (functions_all b) as [fb Fb], (functions_all c) as [fc Fc]. exists (concat (fa ++ concat fb :: fc)). split.
    + constructor. apply Forall2_app; [exact Fa|]. constructor; [now constructor|exact Fc].
    + replace (concat (fa ++ concat fb :: fc)) with (concat (fa ++ fb ++ fc)) by (rewrite !concat_app; cbn [concat]; reflexivity).
      constructor. apply Forall2_app; [exact Fa|now apply Forall2_app].
  - intros w. split; intros H; inversion H as [? t ? I Q|? ? t ? I Q|? ? t ? I Q|]; subst.
    + econstructor; [apply in_app_iff; left; exact I|exact Q].
    + econstructor; [apply in_app_iff; right; exact I|exact Q].
    + apply in_app_iff in I as [I|I]; [eapply S_lower; eassumption|eapply S_upper; eassumption].
  - destruct (functions_all (a ++ b)) as [fs F]. exists (concat fs). split; now constructor.
Qed.
Print Assumptions C182_flat.
(** C182, in part: without functions, the order and the number of the alternatives do not matter.  (Missing: with functions, see [C182_functions_refuted].) *)
Theorem C182_order_partial : forall a b, (forall t, In t a <-> In t b) -> Forall (fun t => functions t []) a -> repr (Union a) = repr (Union b).
Proof.
  intros a b E F. apply same; try (intros w H; now inversion H).
  - intros w. split; intros H; inversion H as [? t ? I Q| | |]; subst; (econstructor; [apply E; exact I|exact Q]).
  - assert (Z : forall l, Forall (fun t => functions t []) l -> functions (Union l) []).
    { intros l G. replace (@nil ty) with (concat (map (fun _ : ty => @nil ty) l)) by (clear; induction l; [reflexivity|assumption]). constructor. induction G; constructor; assumption. }
    exists []. split; apply Z; [exact F|]. rewrite Forall_forall in *. intros t I. apply F, E, I.
Qed.
Print Assumptions C182_order_partial.

(** Words: a, b, c, and the parameter x. *)
Definition word (n : nat) : ty := Word [96 + n].
Definition a_func : ty := Func [Union [word 2; word 1]] [([120], Silent)] (Some (word 3)) (Some (With (word 1))).
(** (a | b, x: any, ..: c) => a | c, from a union with a function. *)
Example C182_nonvacuous : repr (Union [word 3; a_func; Union [word 3]]) =
    Some ([40] ++ [97; 32; 124; 32; 98] ++ [44; 32] ++ [120; 58; 32; 97; 110; 121] ++ [44; 32] ++ [46; 46; 58; 32; 99] ++ [41; 32; 61; 62; 32; 97] ++ [32; 124; 32; 99]) /\
  functions (Union [word 3; a_func; Union [word 3]]) [a_func] /\
  (forall t, In t [word 2; word 1; word 2] <-> In t [word 1; word 2]) /\ Forall (fun t => functions t []) [word 2; word 1; word 2] /\ repr (Union [word 2; word 1; word 2]) = Some [97; 32; 124; 32; 98].
Proof.
  split; [vm_compute; reflexivity|]. split.
  - apply (F_union _ [[]; [a_func]; []]). constructor; [constructor|]. constructor; [constructor|]. constructor; [|constructor]. apply (F_union _ [[]]). repeat constructor.
  - split; [intros t; cbn; intuition|]. split; [repeat constructor|vm_compute; reflexivity].
Qed.
(** C182 fails: of two functions only the first is described, so that the order matters and the other is lost. *)
Theorem C182_functions_refuted : exists f g, repr f <> repr g /\ repr (Union [f; g]) = repr f /\ repr (Union [g; f]) = repr g.
Proof.
  exists (Func [] [] None (Some (word 1))), (Func [] [] None (Some (word 2))). split; [vm_compute; discriminate|]. split; vm_compute; reflexivity.
Qed.
Print Assumptions C182_functions_refuted.
