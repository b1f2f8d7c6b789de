(** Theorems about the symbols of a workspace (C172). *)
From Coq Require Import List Arith Bool Lia.
From Verif Require Import LexModel LexSpec LexThm SymModel SymSpec SymProof.
Import ListNotations.

(** C172, in part: an answer has exactly the symbols that are asked for at the top of each file or directly below the top.  (Missing: deeper ones, see [C172_deep_refuted].) *)
Theorem C172_answer_partial : forall q fs l s, workspace_symbols q fs = Some l ->
  In s l <-> exists f d i, In f fs /\ d < 2 /\ item_of f d i /\ asked q (i_name i) /\ shown (i_kind i) /\ seen f i s.
Proof. exact answer. Qed.
Print Assumptions C172_answer_partial.
(** C172: an answer has the files in order, and for each some of what is found in it, in order and each once, with the address of the file. *)
Theorem C172_ordered : forall q fs l, workspace_symbols q fs = Some l -> exists ls, l = concat ls /\
  Forall2 (fun f a => match f_source f with None => a = [] | Some root => subseq (map (fun s => mkInfo (s_name s) (s_kind s) (s_range s)) a) (finds Symbol None root CRef) /\ Forall (fun s => f_uri f = Some (s_uri s)) a end) fs ls.
Proof. exact ordered. Qed.
Print Assumptions C172_ordered.
(** C172: when there is no answer but a panic: a source has no address, or a comment or list item in one of the first two levels is asked for. *)
Theorem C172_panics : forall q fs, workspace_symbols q fs = None <->
  exists f, In f fs /\ f_source f <> None /\ (f_uri f = None \/ exists d i, d < 2 /\ item_of f d i /\ asked q (i_name i) /\ ~ shown (i_kind i)).
Proof. exact panics. Qed.
Print Assumptions C172_panics.
(** C172: there is an answer for every pattern that is not empty. *)
Theorem C172_named : forall c fs, c 0 = false -> Forall addressed fs -> exists l, workspace_symbols (Some c) fs = Some l.
Proof. exact named. Qed.
Print Assumptions C172_named.

(** Two files of which one cannot be read; the pattern is contained in two names. *)
Definition some_files : list file := [mkFile (Some 5) (Some plain_doc); mkFile (Some 6) None; mkFile (Some 7) (Some commented)].
Definition some_pattern : pattern := Some (fun n => orb (n =? 12) (n =? 14)).
Example C172_nonvacuous : workspace_symbols some_pattern some_files = Some [mkSymbol 12 LVariable 5 (13, 14); mkSymbol 12 LVariable 7 (8, 9)] /\
  (fun n => orb (n =? 12) (n =? 14)) 0 = false /\ Forall addressed some_files.
Proof. split; [vm_compute; reflexivity|]. split; [reflexivity|]. repeat constructor; discriminate. Qed.
Example C172_panics_nonvacuous : workspace_symbols None some_files = None /\ item_of (mkFile (Some 7) (Some commented)) 0 (mkInfo 0 LComment (0, 2)).
Proof.
  split; [vm_compute; reflexivity|]. eexists commented, _, _. split; [reflexivity|]. split; [vm_compute; reflexivity|].
  split; [left; reflexivity|apply At_top].
Qed.
(** C172 fails: a comment before a definition (or a list item) makes the request without a pattern, or with the empty one, panic. *)
Theorem C172_panic_refuted : exists f i, (exists root par y, f_source f = Some root /\ inside None root par y /\ defines par y i) /\ addressed f /\
  forall q, (q = None \/ exists c, q = Some c /\ forall n, c n = true) -> workspace_symbols q [f] = None.
Proof.
  exists (mkFile (Some 7) (Some commented)), (mkInfo 12 LVariable (8, 9)). split; [|split].
  - eexists commented, _, (a_let 12 4). split; [reflexivity|]. split; [eapply In_child with (x := a_let 12 4); [reflexivity| |reflexivity|apply In_self]; cbn; auto|]. eapply D_var. reflexivity.
  - discriminate.
  - intros q [->|(c & -> & H)]; [vm_compute; reflexivity|]. apply C172_panics. eexists. split; [left; reflexivity|]. split; [discriminate|]. right.
    exists 0, (mkInfo 0 LComment (0, 2)). split; [lia|]. split; [exact (proj2 C172_panics_nonvacuous)|]. split; [apply H|intros []].
Qed.
Print Assumptions C172_panic_refuted.
(** C172 fails: a heading of the third level is not found, by its name or otherwise, though it is a symbol of the document. *)
Theorem C172_deep_refuted : exists f root ds i, f_source f = Some root /\ addressed f /\ document_symbols root = Some ds /\ In i (flat_map dinfos ds) /\
  forall q l, workspace_symbols q [f] = Some l -> ~ exists s, In s l /\ seen f i s.
Proof.
  exists (mkFile (Some 5) (Some (doc [a_head 1 11 0; a_head 2 12 20; a_head 3 13 40]))). eexists _, _, (mkInfo 13 (LHeading 3) (42, 45)).
  split; [reflexivity|]. split; [discriminate|]. split; [vm_compute; reflexivity|]. split; [cbn; auto|].
  intros q l H (s & Hs & Hn & Hk & Hr & _). apply (C172_answer_partial _ _ _ _ H) in Hs as (f & d & i & [<-|[]] & L & (root & hs & h & R & G & Hh & D) & _ & _ & (N & K & _)).
  injection R as <-. vm_compute in G. injection G as <-. destruct Hh as [<-|[]].
  assert (E : i_name i = 13) by (rewrite <- N; exact Hn). clear - L D E.
  inversion D as [? ?|d' ? ? ? g Hg D']; subst; [discriminate|]. destruct Hg as [<-|[]].
  assert (d' = 0) by lia. subst. inversion D'; subst. discriminate.
Qed.
Print Assumptions C172_deep_refuted.
