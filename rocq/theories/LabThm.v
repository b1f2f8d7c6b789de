(** Theorems about the labels of a workspace (C178). *)
From Coq Require Import List Arith Bool Lia.
From Verif Require Import LexModel LexSpec LexProof LexThm LabModel LabSpec LabProof.
Import ListNotations.

(** C178: there is always an answer, whatever the files have and whichever of them cannot be read. *)
Theorem C178_total : forall fs, exists l, workspace_labels fs = Some l.
Proof. exact total. Qed.
Print Assumptions C178_total.
(** C178, in part: an answer has exactly the labels at the top of a file that has a source and an address, or directly below an item at the top.  (Missing: the others, see [C178_deep_refuted].) *)
Theorem C178_answer_partial : forall fs l x, workspace_labels fs = Some l ->
  In x l <-> exists f root d, In f fs /\ f_source f = Some root /\ f_uri f = Some (l_uri x) /\ d < 2 /\ label_of root d (l_name x) (l_range x).
Proof. exact answer. Qed.
Print Assumptions C178_answer_partial.
(** C178: each label of a source is at some depth. *)
Theorem C178_depth : forall root name r, has_label root name r -> exists d, label_of root d name r.
Proof.
  intros root name r (par & e & p & cs & H). pose proof (found _ _ _ _ H (D_label par name r e p cs)) as F.
  destruct (hierarchy_total Symbol root) as (hs & G & W & _). rewrite <- W in F. apply in_flat_map in F as (h & Hh & F).
  destruct (depth_of _ _ F) as [d D]. exists d, hs, h. repeat split; assumption.
Qed.
Print Assumptions C178_depth.
(** C178: an answer has the files in order, and for each some of what is found in it, in order and each once, with the address of the file. *)
Theorem C178_ordered : forall fs l, workspace_labels fs = Some l -> exists ls, l = concat ls /\
  Forall2 (fun f a => match f_source f, f_uri f with
    | Some root, Some u => subseq (map as_info a) (finds Symbol None root CRef) /\ Forall (fun x => l_uri x = u) a
    | _, _ => a = [] end) fs ls.
Proof. exact ordered. Qed.
Print Assumptions C178_ordered.

(** A label of two bytes. *)
Definition a_label (name at_ : nat) : node := Node (KLabel name false) (at_, at_ + 2) true false [].
(** A comment, a heading with a label and a definition; a file that cannot be read, one without an address, and one with a label at its top. *)
Definition label_doc : node := doc [comment 0; a_head 1 11 10; a_label 21 16; hash 20; a_let 12 21; a_label 22 40].
Definition label_files : list file := [mkFile (Some label_doc) (Some 5); mkFile None (Some 6); mkFile (Some label_doc) None; mkFile (Some (doc [a_label 23 0])) (Some 7)].
Example C178_nonvacuous : workspace_labels label_files = Some [mkLabel 21 5 (16, 18); mkLabel 22 5 (40, 42); mkLabel 23 7 (0, 2)] /\ has_label label_doc 22 (40, 42).
Proof.
  split; [vm_compute; reflexivity|]. eexists _, _, _, _. eapply In_child with (x := a_label 22 40); [reflexivity| |reflexivity|apply In_self]. cbn. tauto.
Qed.
(** C178 fails: the label of a heading of the second level, below one of the first, is not in the answer, though it is a symbol of the document. *)
Theorem C178_deep_refuted : exists root u ds name r l, has_label root name r /\ document_symbols root = Some ds /\ In (mkInfo name LLabel r) (flat_map dinfos ds) /\
  workspace_labels [mkFile (Some root) (Some u)] = Some l /\ ~ exists x, In x l /\ l_name x = name.
Proof.
  exists (doc [a_head 1 11 0; a_label 21 6; a_head 2 12 20; a_label 22 26]), 5. eexists _, 22, (26, 28), _. split.
  - eexists _, _, _, _. eapply In_child with (x := a_label 22 26); [reflexivity| |reflexivity|apply In_self]. cbn. tauto.
  - split; [vm_compute; reflexivity|]. split; [cbn; tauto|]. split; [vm_compute; reflexivity|]. intros (x & H & E). cbn in H. destruct H as [<-|[]]. discriminate E.
Qed.
Print Assumptions C178_deep_refuted.
