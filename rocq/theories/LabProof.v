(** Proofs about the labels of a workspace (C178). *)
From Coq Require Import List Arith Bool Lia.
From Verif Require Import LexModel LexSpec LexProof LabModel LabSpec.
Import ListNotations.

Lemma file_total f : exists a, of_file f = Some a.
Proof.
  unfold of_file. destruct (f_source f) as [root|]; [|eauto]. destruct (f_uri f) as [u|]; [|eauto].
  destruct (hierarchy_total Symbol root) as (hs & -> & _). eauto.
Qed.
Lemma total fs : exists l, workspace_labels fs = Some l.
Proof. induction fs as [|f r [b IH]]; cbn; [eauto|]. destruct (file_total f) as [a ->]. rewrite IH. eauto. Qed.
Lemma parts fs l : workspace_labels fs = Some l -> exists ls, l = concat ls /\ Forall2 (fun f a => of_file f = Some a) fs ls.
Proof.
  revert l. induction fs as [|f r IH]; cbn; intros l H; [injection H as <-; exists []; split; [reflexivity|constructor]|].
  destruct (of_file f) as [a|] eqn:E; [|discriminate]. destruct (workspace_labels r) as [b|]; [|discriminate]. injection H as <-.
  destruct (IH b eq_refl) as (ls & -> & F). exists (a :: ls). split; [reflexivity|]. constructor; assumption.
Qed.
Lemma two_in h i : In i (two h) <-> exists d, d < 2 /\ at_depth d i h.
Proof.
  destruct h as [j cs]. cbn [two]. split.
  - intros [<-|H]; [exists 0; split; [lia|constructor]|]. apply in_map_iff in H as ([k ds] & <- & H). exists 1. split; [lia|].
    econstructor; [exact H|constructor].
  - intros (d & L & D). inversion D as [? ?|d' ? ? ? h H D']; subst; [now left|]. right. assert (d' = 0) by lia. subst. inversion D'; subst.
    apply in_map_iff. eexists. split; [|exact H]. reflexivity.
Qed.
Lemma one_in u i l : In l (one u i) <-> i = mkInfo (l_name l) LLabel (l_range l) /\ l_uri l = u.
Proof.
  destruct i as [n k r]. unfold one. cbn. destruct k; try (split; [intros []|intros [E _]; discriminate E]).
  split; [intros [<-|[]]; split; reflexivity|]. intros [E U]. injection E as -> ->. left. destruct l; cbn in *. now subst.
Qed.
Lemma file_in f a l : of_file f = Some a ->
  In l a <-> exists root d, f_source f = Some root /\ f_uri f = Some (l_uri l) /\ d < 2 /\ label_of root d (l_name l) (l_range l).
Proof.
  unfold of_file. destruct (f_source f) as [root|]; [|intros E; injection E as <-; split; [intros []|intros (? & ? & E & _); discriminate]].
  destruct (f_uri f) as [u|]; [|intros E; injection E as <-; split; [intros []|intros (? & ? & _ & E & _); discriminate]].
  destruct (hierarchy_total Symbol root) as (hs & G & _). rewrite G. intros E. injection E as <-. unfold filter_document_labels. split.
  - intros H. apply in_flat_map in H as (i & Hi & Hl). apply in_flat_map in Hi as (h & Hh & Hi). apply two_in in Hi as (d & L & D).
    apply one_in in Hl as [-> <-]. exists root, d. repeat split; [exact L|]. exists hs, h. repeat split; assumption.
  - intros (root' & d & E & U & L & hs' & h & G' & Hh & D). injection E as <-. injection U as ->. rewrite G in G'. injection G' as <-.
    apply in_flat_map. eexists. split; [apply in_flat_map; exists h; split; [exact Hh|]; apply two_in; exists d; split; [exact L|exact D]|].
    apply one_in. split; reflexivity.
Qed.
Lemma answer fs l x : workspace_labels fs = Some l ->
  In x l <-> exists f root d, In f fs /\ f_source f = Some root /\ f_uri f = Some (l_uri x) /\ d < 2 /\ label_of root d (l_name x) (l_range x).
Proof.
  intros H. apply parts in H as (ls & -> & F). split.
  - intros H. apply in_concat in H as (a & Ha & Hx). induction F as [|f a' fs ls E F IH]; [destruct Ha|]. destruct Ha as [->|Ha].
    + apply (file_in _ _ _ E) in Hx as (root & d & Hx). exists f, root, d. split; [now left|exact Hx].
    + destruct (IH Ha) as (g & root & d & Hg & R). exists g, root, d. split; [now right|exact R].
  - intros (f & root & d & Hf & R). apply in_concat. induction F as [|g a fs ls E F IH]; [destruct Hf|]. destruct Hf as [->|Hf].
    + exists a. split; [now left|]. apply (file_in _ _ _ E). exists root, d. exact R.
    + destruct (IH Hf) as (b & Hb & Hx). exists b. split; [now right|exact Hx].
Qed.
Lemma subseq_nil {A} (a : list A) : subseq [] a.
Proof. induction a; constructor; assumption. Qed.
Lemma subseq_app {A} (a b c d : list A) : subseq a b -> subseq c d -> subseq (a ++ c) (b ++ d).
Proof. induction 1; cbn; intros; [assumption|constructor; auto|constructor; auto]. Qed.
Lemma subseq_trans {A} (a b c : list A) : subseq a b -> subseq b c -> subseq a c.
Proof.
  intros H K. revert a H. induction K as [|x b c K IH|x b c K IH]; intros a H; [exact H| |constructor; auto].
  inversion H; subst; constructor; auto.
Qed.
Lemma two_sub h : subseq (two h) (infos h).
Proof.
  destruct h as [i cs]. cbn [two infos]. constructor. induction cs as [|[j ds] cs IH]; cbn [map flat_map infos]; [constructor|].
  cbn [app]. constructor. change (map (fun c => match c with Hier j0 _ => j0 end) cs) with ([] ++ map (fun c => match c with Hier j0 _ => j0 end) cs).
  apply subseq_app; [apply subseq_nil|exact IH].
Qed.
Lemma flat_sub hs : subseq (flat_map two hs) (flat_map infos hs).
Proof. induction hs as [|h hs IH]; cbn; [constructor|]. apply subseq_app; [apply two_sub|exact IH]. Qed.
Lemma ones_sub u is_ : subseq (map as_info (flat_map (one u) is_)) is_.
Proof.
  induction is_ as [|i r IH]; cbn; [constructor|]. rewrite map_app. change (i :: r) with ([i] ++ r). apply subseq_app; [|exact IH].
  destruct i as [n k q]; unfold one; cbn; destruct k; cbn; repeat constructor.
Qed.
Lemma ordered fs l : workspace_labels fs = Some l -> exists ls, l = concat ls /\
  Forall2 (fun f a => match f_source f, f_uri f with
    | Some root, Some u => subseq (map as_info a) (finds Symbol None root CRef) /\ Forall (fun x => l_uri x = u) a
    | _, _ => a = [] end) fs ls.
Proof.
  intros H. apply parts in H as (ls & -> & F). exists ls. split; [reflexivity|]. induction F as [|f a fs ls E F IH]; constructor; [|exact IH].
  clear IH F. unfold of_file in E. destruct (f_source f) as [root|]; [|now injection E as <-]. destruct (f_uri f) as [u|]; [|now injection E as <-].
  destruct (hierarchy_total Symbol root) as (hs & G & W & _). rewrite G in E. injection E as <-. split.
  - eapply subseq_trans; [apply ones_sub|]. rewrite <- W. apply flat_sub.
  - apply Forall_forall. intros x Hx. apply in_flat_map in Hx as (i & _ & Hx). now apply one_in in Hx.
Qed.
(** Every label is somewhere in the hierarchy. *)
Lemma depth_of i h : In i (infos h) -> exists d, at_depth d i h.
Proof.
  induction h as [j cs IH] using hier_ind2. cbn [infos]. intros [<-|H]; [exists 0; constructor|].
  apply in_flat_map in H as (h & Hh & H). rewrite Forall_forall in IH. destruct (IH h Hh H) as [d D]. exists (S d). econstructor; eassumption.
Qed.
