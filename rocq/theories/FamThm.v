(** Families of fonts. *)
From Coq Require Import String Ascii List Arith Bool Lia.
From Verif Require Import FamModel FamSpec FamProof.
Import ListNotations.
Local Open Scope list_scope.

(** There is always a family, and it is the one said of the name. *)
Theorem C183_exact : forall wide f, exists r, family wide f = Some r /\ forall r', Family wide f r' <-> r' = r.
Proof.
  intros wide f. destruct (family_Family wide f) as (r & A & F). exists r. split; [exact A|]. intros r'. split.
  - intros F'. eapply Family_det; eassumption.
  - now intros ->.
Qed.
Print Assumptions C183_exact.

(** A style after a name makes no difference, unless the name ends in a modifier. *)
Theorem C183_variants : forall wide b c s,
  b <> [] -> tight wide b -> sep c -> In (map low s) styles -> (forall d m q, sep d -> In m mods -> map low b <> q ++ [d] ++ m) ->
  family wide (b ++ [c] ++ s) = family wide b.
Proof. exact variant. Qed.
Print Assumptions C183_variants.

(** Other names are their own family. *)
Theorem C183_plain : forall wide b,
  tight wide b -> (forall q, b <> 46 :: q) -> ~ ends_in styles (map low b) -> ~ newcm b -> (forall r, ~ In (b, r) renamed) -> family wide b = Some b.
Proof.
  intros wide b T D N M R. destruct (C183_exact wide b) as (r & A & U). rewrite A. f_equal. symmetry. apply U.
  exists [], [], [], b, b, []. cbn [app]. rewrite app_nil_r. repeat split; try apply Forall_nil; try apply T; try assumption.
  right. split; [assumption|]. split; [|right; now split]. apply plain_none. intros l' (t & (us & V & F & E & _) & _). apply N.
  destruct us as [|u us _] using rev_ind; [congruence|]. apply Forall_app in F. destruct F as [_ F]. apply Forall_inv in F.
  rewrite concat_app in E. cbn in E. rewrite app_nil_r, app_assoc in E. exists (t ++ concat us), u. now split.
Qed.
Print Assumptions C183_plain.

(** The family of a family may be another one: two spaces before a style leave one behind. *)
Theorem C183_twice : exists f r r', forall wide, family wide f = Some r /\ family wide r = Some r' /\ r' <> r.
Proof. exists (codes "Foo  Bold"), (codes "Foo "), (codes "Foo"). intros wide. vm_compute. repeat split. discriminate. Qed.
Print Assumptions C183_twice.

(** The family may be empty. *)
Theorem C183_empty : exists f, f <> [] /\ forall wide, family wide f = Some [].
Proof. exists (codes "-Bold"). split; [discriminate|]. intros wide. reflexivity. Qed.
Print Assumptions C183_empty.

Example C183_nonvacuous :
  family (fun _ => false) (codes " Foo-SemiBold Italic") = Some (codes "Foo") /\ family (fun _ => false) (codes "NewCM10-Book") = Some (codes "NewCM")
  /\ family (fun _ => false) (codes "NewComputerModern10 bold") = Some (codes "New Computer Modern") /\ family (fun _ => false) (codes ".Foo_Th") = Some (codes "Foo")
  /\ family (fun _ => false) (codes "FooBold") = Some (codes "FooBold") /\ family (fun _ => false) (codes "Foo BOLD") = family (fun _ => false) (codes "Foo")
  /\ tight (fun _ => false) (codes "Foo") /\ In (map low (codes "BOLD")) styles /\ (forall d m q, sep d -> In m mods -> map low (codes "Foo") <> q ++ [d] ++ m)
  /\ ~ ends_in styles (map low (codes "Foo")) /\ ~ newcm (codes "Foo") /\ (forall r, ~ In (codes "Foo", r) renamed).
Proof.
  repeat match goal with |- _ /\ _ => split end.
  1-6: vm_compute; reflexivity.
  - split.
    + intros c r [= <- _] B. destruct B as [B|[B|[_ B]]]; [cbn in B; lia|discriminate|discriminate].
    + intros c r E B. assert (C : c = 111). { change (codes "Foo") with ([70; 111] ++ [111]) in E. apply app_inj_tail in E. now symmetry. } subst c. destruct B as [B|[B|[_ B]]]; [lia|discriminate|discriminate].
  - vm_compute. tauto.
  - intros d m q D M E. change (map low (codes "Foo")) with [102; 111; 111] in E. assert (I : In d [102; 111; 111]) by (rewrite E; apply in_or_app; right; now left).
    destruct D as [->|[->| ->]]; cbn in I; intuition discriminate.
  - intros (b & w & W & E). assert (S : strip_first suffixes (map low (codes "Foo")) = None) by (vm_compute; reflexivity). apply strip_first_none in S. apply S. now exists b, w.
  - intros N. apply is_newcm_spec in N. vm_compute in N. discriminate.
  - intros r I. vm_compute in I. intuition discriminate.
Qed.
