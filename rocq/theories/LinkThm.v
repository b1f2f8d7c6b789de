(** Theorems about links. *)
From Coq Require Import String.
From Coq Require Import List Arith NArith Bool Lia.
From Verif Require Import DigModel PageModel PathModel PathSpec PathProof EntryModel WsProof LocModel LocProof LinkModel LinkSpec LinkProof.
Import ListNotations.
Local Open Scope nat_scope.

(** * C160: the links of a document *)

(** The links are the strings that name a path in an include or a call of a reader. *)
Theorem C160_links : forall spec_ok file root x, In x (get_link_exprs spec_ok file root) <-> is_link spec_ok file root x.
Proof. exact links_ok. Qed.
Print Assumptions C160_links.

Lemma total_app a b : total (a ++ b) = total a + total b.
Proof. unfold total. induction a as [|x a IH]; cbn; [auto|]. rewrite IH. lia. Qed.
Lemma len_inner k cs : len (Inner k cs) = total cs.
Proof. reflexivity. Qed.
Lemma child_range off cs o c : child off cs o c -> off <= o /\ o + len c <= off + total cs.
Proof. intros (pre & post & -> & ->). rewrite total_app. unfold total. cbn. lia. Qed.
Lemma first_child_child f off cs o c : first_child f off cs o c -> child off cs o c.
Proof. intros (pre & post & H1 & H2 & _). exists pre, post. auto. Qed.
Lemma last_child_child f off cs o c : last_child f off cs o c -> child off cs o c.
Proof. intros (pre & post & H1 & H2 & _). exists pre, post. auto. Qed.
Lemma inside_range off n off' n' : inside off n off' n' -> off <= off' /\ off' + len n' <= off + len n.
Proof.
  induction 1 as [off n|off k pre c post off' n' _ IH]; [lia|]. rewrite len_inner, total_app. unfold total at 2. cbn [fold_right]. fold (total post). lia.
Qed.
Lemma names_range off n o c : names off n o c -> off <= o /\ o + len c <= off + len n.
Proof.
  intros [(cs & -> & H)|(cs & f & key & pos & oa & args & -> & _ & _ & H & Ha)]; rewrite len_inner.
  - apply child_range. eapply last_child_child. eauto.
  - apply last_child_child, child_range in H. rewrite len_inner in H. destruct Ha as [(_ & Ha & _)|(ncs & o1 & o2 & l & H1 & _ & H2)].
    + apply first_child_child, child_range in Ha. lia.
    + apply child_range in H1. rewrite len_inner in H1. apply last_child_child, child_range in H2. lia.
Qed.
(** A link is a part of the document that is not empty, between the quotes of a string. *)
Theorem C160_range : forall spec_ok file root x, In x (get_link_exprs spec_ok file root) ->
  0 < l_start x /\ l_start x < l_end x /\ l_end x < len root /\
  exists content, inside 0 root (l_start x - 1) (Leaf (LStr content) (l_end x - l_start x + 2)).
Proof.
  intros spec_ok file root x H. apply links_ok in H. destruct H as (off & n & o & c & so & l & content & H1 & H2 & H3 & H4).
  destruct H4 as (E1 & E2 & E3 & _). assert (R1 := inside_range _ _ _ _ H1). assert (R2 := names_range _ _ _ _ H2).
  assert (Hin : forall off n o c off' n', inside off n o c -> inside o c off' n' -> inside off n off' n').
  { clear. intros off n o c off' n' H. induction H as [|off k pre d post o c _ IH]; [auto|]. intros X. apply inside_deeper. auto. }
  assert (Hch : forall off k cs o c, child off cs o c -> inside off (Inner k cs) o c).
  { clear. intros off k cs o c (pre & post & -> & ->). apply inside_deeper. constructor. }
  assert (Hc : inside off n o c).
  { destruct H2 as [(cs & -> & H)|(cs & f & key & pos & oa & args & -> & _ & _ & H & Ha)]; [apply Hch; eapply last_child_child; eauto|].
    apply last_child_child in H. apply (Hin _ _ oa (Inner IArgs args)); [apply Hch; auto|]. destruct Ha as [(_ & Ha & _)|(ncs & o1 & o2 & l' & Ha & _ & Hb)]; [apply Hch; eapply first_child_child; eauto|].
    apply (Hin _ _ o1 (Inner INamed ncs)); [apply Hch; auto|]. apply Hch. eapply last_child_child. eauto. }
  assert (Hs : inside o c so (Leaf (LStr content) l)).
  { destruct H3 as [(<- & ->)|(cs & -> & H)]; [constructor|apply Hch; auto]. }
  assert (Hr := Hin _ _ _ _ _ _ H1 (Hin _ _ _ _ _ _ Hc Hs)). assert (R := inside_range _ _ _ _ Hr). cbn [len] in R. split; [lia|]. split; [lia|]. split; [lia|]. exists content.
  replace (l_start x - 1) with so by lia. replace (l_end x - l_start x + 2) with l by lia. auto.
Qed.
Print Assumptions C160_range.
Lemma vfold_walk q : Forall (fun c => c <> RootC) q -> forall a k, exists a' k',
  fold_left vstep q (map Nor a ++ repeat ParC k) = map Nor a' ++ repeat ParC k' /\ k <= k' /\ (k' = k -> forall b, walk (a ++ b) q = a' ++ b) /\ walk a q = a'.
Proof.
  induction 1 as [|c q Hc _ IH]; intros a k; [exists a, k; cbn; auto|]. cbn [fold_left]. destruct c as [| | |n]; [contradiction| | |].
  - destruct (IH a k) as (a' & k' & H1 & H2 & H3 & H4). exists a', k'. auto.
  - destruct a as [|n a].
    + assert (E : vstep (map Nor [] ++ repeat ParC k) ParC = map Nor [] ++ repeat ParC (S k)) by (destruct k; auto). rewrite E. destruct (IH [] (S k)) as (a' & k' & H1 & H2 & _ & H4). exists a', k'. split; [auto|]. split; [lia|]. split; [intros X; lia|auto].
    + destruct (IH a k) as (a' & k' & H1 & H2 & H3 & H4). exists a', k'. auto.
  - destruct (IH (n :: a) k) as (a' & k' & H1 & H2 & H3 & H4). exists a', k'. auto.
Qed.
Lemma vresolve_pars k ns : forall rs p, vresolve (RootC :: map Nor rs) (repeat ParC k ++ map Nor ns) = Some p -> p = RootC :: map Nor rs ++ map Nor ns /\ (k = 0 \/ rs = []).
Proof.
  intros rs p H. pose proof (vresolve_shape _ _ _ _ H) as E. split; [auto|]. destruct k as [|k]; [auto|]. right. cbn in H. destruct rs as [|r rs]; [auto|]. exfalso.
  assert (P : pop (RootC :: map Nor (r :: rs)) = RootC :: map Nor (removelast (r :: rs))).
  { assert (X : r :: rs = removelast (r :: rs) ++ [last (r :: rs) r]) by (apply app_removelast_last; discriminate). rewrite X at 1. rewrite map_app. cbn [map]. change (RootC :: map Nor (removelast (r :: rs)) ++ [Nor (last (r :: rs) r)]) with ((RootC :: map Nor (removelast (r :: rs))) ++ [Nor (last (r :: rs) r)]). apply pop_snoc. discriminate. }
  change (Nor r :: map Nor rs) with (map Nor (r :: rs)) in H. rewrite P in H. destruct (path_eqb (RootC :: map Nor (removelast (r :: rs))) (RootC :: map Nor (r :: rs))) eqn:Q; [|discriminate].
  assert (L : forall a b, path_eqb a b = true -> length a = length b).
  { clear. induction a as [|x a IH]; intros [|y b] H; cbn in *; try discriminate; auto. apply andb_true_iff in H. destruct H as (_ & H). f_equal. auto. }
  apply L in Q. change (S (length (map Nor (removelast (r :: rs)))) = S (length (map Nor (r :: rs)))) in Q. rewrite !map_length in Q.
  assert (Z : length (r :: rs) = length (removelast (r :: rs) ++ [last (r :: rs) r])) by (f_equal; apply app_removelast_last; discriminate). rewrite app_length in Z. change (length [last (r :: rs) r]) with 1 in Z. lia.
Qed.
(** A relative link leads to the file that the compiler loads. *)
Theorem C160_relative : forall rs d n s p, is_abs (components s) = false ->
  load (RootC :: map Nor rs) (map Nor (d ++ [n])) s = Some p ->
  exists q, resolve_link (RootC :: map Nor rs) (map Nor (d ++ [n])) s = Some q /\ walk [] q = walk [] p.
Proof.
  intros rs d n s p Hs H. unfold load, resolve_link, dir_of in *. rewrite map_app in *. cbn [map] in *. rewrite removelast_last in *.
  assert (V : vpath (map Nor d) = map Nor d).
  { unfold vpath. assert (X : forall ns out, fold_left vstep (map Nor ns) out = rev (map Nor ns) ++ out) by (clear; induction ns as [|x ns IH]; intros out; cbn; [auto|]; rewrite IH, <- app_assoc; auto). rewrite X, app_nil_r, rev_involutive. auto. }
  rewrite V. assert (W : vresolve (RootC :: map Nor rs) (map Nor d) = Some (RootC :: map Nor (rs ++ d))) by (destruct d as [|x d]; cbn; [rewrite app_nil_r; auto|rewrite map_app; auto]).
  rewrite W. eexists. split; [reflexivity|]. rewrite walk_join. change (walk [] (RootC :: map Nor (rs ++ d))) with (walk [] (map Nor (rs ++ d))). rewrite walk_names, app_nil_r.
  assert (Hq : Forall (fun c => c <> RootC) (components s)).
  { pose proof (components_ok s) as K. destruct (components s) as [|[| | |m] r]; [constructor|discriminate| | |]; cbn in K; constructor; try discriminate; try (inversion K; subst; auto; fail).
    - eapply Forall_impl; [|exact K]. intros []; cbn; intros; try discriminate; contradiction.
    - inversion K; subst. eapply Forall_impl; [|eassumption]. intros []; cbn; intros; try discriminate; contradiction.
    - inversion K; subst. eapply Forall_impl; [|eassumption]. intros []; cbn; intros; try discriminate; contradiction. }
  assert (J : forall q p0, Forall (fun c => c <> RootC) q -> p0 <> [] -> join p0 q = p0 ++ filter (fun c => match c with CurC => false | _ => true end) q).
  { clear. unfold join. induction q as [|c q IH]; intros p0 Hq Hp; cbn; [rewrite app_nil_r; auto|]. inversion Hq; subst. destruct c; [contradiction| | |].
    - destruct p0; [contradiction|]. apply IH; auto.
    - cbn [push]. rewrite IH by (auto; destruct p0; discriminate). rewrite <- app_assoc. auto.
    - cbn [push]. rewrite IH by (auto; destruct p0; discriminate). rewrite <- app_assoc. auto. }
  assert (F : forall q out, fold_left vstep (filter (fun c => match c with CurC => false | _ => true end) q) out = fold_left vstep q out).
  { clear. induction q as [|c q IH]; intros out; cbn; [auto|]. destruct c; cbn; auto. }
  unfold vpath in H. rewrite J in H by (auto; discriminate). rewrite fold_left_app, F in H. cbn [fold_left vstep] in H.
  assert (X : forall ns out, fold_left vstep (map Nor ns) out = rev (map Nor ns) ++ out) by (clear; induction ns as [|x ns IH]; intros out; cbn; [auto|]; rewrite IH, <- app_assoc; auto). rewrite X, app_nil_r in H.
  destruct (vfold_walk (components s) Hq (rev d) 0) as (a' & k' & E & _ & E0 & E1). cbn [repeat] in E. rewrite app_nil_r, map_rev in E. rewrite E in H. rewrite rev_app_distr in H.
  assert (Rr : forall k, rev (repeat ParC k) = repeat ParC k) by (intros k; apply rev_repeat). rewrite Rr, <- map_rev in H. apply vresolve_pars in H. destruct H as (-> & Hk).
  rewrite <- map_app. change (walk [] (RootC :: map Nor (rs ++ rev a'))) with (walk [] (map Nor (rs ++ rev a'))). rewrite walk_names, app_nil_r, rev_app_distr, rev_app_distr, rev_involutive. destruct Hk as [->| ->]; [apply E0; auto|cbn [rev app]; rewrite !app_nil_r; auto].
Qed.
Print Assumptions C160_relative.
(** An absolute one leads out of the root, to another file. *)
Theorem C160_absolute_refuted : exists root v s p q, load root v s = Some p /\ resolve_link root v s = Some q /\ walk [] q <> walk [] p.
Proof.
  exists [RootC; Nor (lit "w")], [Nor (lit "main.typ")], (lit "/a.png"), [RootC; Nor (lit "w"); Nor (lit "a.png")], [RootC; Nor (lit "a.png")].
  split; [reflexivity|]. split; [reflexivity|]. vm_compute. discriminate.
Qed.
Print Assumptions C160_absolute_refuted.
(** The tree of [#include "b.typ" #std.image("a.png", alt: "x") #bibliography(("r.bib",), style: "@p")]. *)
Definition C160_doc : node :=
  Inner IPart [Leaf LTok 1; Inner IInclude [Leaf LSkip 7; Leaf LSkip 1; Leaf (LStr (lit "b.typ")) 7]; Leaf LSkip 1; Leaf LTok 1;
    Inner ICall [Inner IField [Leaf (LIdent (lit "std")) 3; Leaf LTok 1; Leaf (LIdent (lit "image")) 5];
      Inner IArgs [Leaf LTok 1; Leaf (LStr (lit "a.png")) 7; Leaf LTok 1; Leaf LSkip 1; Inner INamed [Leaf (LIdent (lit "alt")) 3; Leaf LTok 1; Leaf LSkip 1; Leaf (LStr (lit "x")) 3]; Leaf LTok 1]];
    Leaf LSkip 1; Leaf LTok 1;
    Inner ICall [Leaf (LIdent (lit "bibliography")) 12;
      Inner IArgs [Leaf LTok 1; Inner IArray [Leaf LTok 1; Leaf (LStr (lit "r.bib")) 7; Leaf LTok 1; Leaf LTok 1]; Leaf LTok 1; Leaf LSkip 1; Inner INamed [Leaf (LIdent (lit "style")) 5; Leaf LTok 1; Leaf LSkip 1; Leaf (LStr (lit "@p")) 4]; Leaf LTok 1]]].
Example C160_nonvacuous :
  get_link_exprs (fun _ => true) 5 C160_doc =
    [{| l_start := 10; l_end := 15; l_target := TPath 5 (lit "b.typ") |}; {| l_start := 29; l_end := 34; l_target := TPath 5 (lit "a.png") |};
     {| l_start := 81; l_end := 83; l_target := TPackage (lit "@p") |}; {| l_start := 63; l_end := 68; l_target := TPath 5 (lit "r.bib") |}] /\
  load [RootC; Nor (lit "w")] [Nor (lit "d"); Nor (lit "m.typ")] (lit "../a.png") = Some [RootC; Nor (lit "w"); Nor (lit "a.png")].
Proof. split; reflexivity. Qed.

(** * C161: renaming a file and the links to it *)

(** Links of another file than the renamed one are never changed. *)
Theorem C161_other : forall spec_ok def name ref root, ref <> def -> links_in_file spec_ok def name ref root = [].
Proof.
  intros spec_ok def name ref root H. unfold links_in_file. destruct (existsb (eqb name) (index_paths root)); [|auto].
  destruct (filter _ _) as [|x l] eqn:E; [auto|]. exfalso. assert (Hx : In x (x :: l)) by (left; auto). rewrite <- E in Hx. apply filter_In in Hx. destruct Hx as (Hx & Ht).
  apply links_ok in Hx. destruct Hx as (off & n & o & c & so & len & content & _ & _ & _ & (_ & _ & _ & [(_ & _ & T)|(_ & T)])); rewrite T in Ht; [discriminate|]. apply Nat.eqb_eq in Ht. contradiction.
Qed.
Print Assumptions C161_other.
(** A document without a string of that file name is not changed. *)
Theorem C161_unnamed : forall spec_ok def name ref root, ~ In name (index_paths root) -> links_in_file spec_ok def name ref root = [].
Proof.
  intros spec_ok def name ref root H. unfold links_in_file. destruct (existsb (eqb name) (index_paths root)) eqn:E; [|auto]. exfalso. apply H. apply existsb_exists in E. destruct E as (x & Hx & Ex). apply eqb_ok in Ex. subst. auto.
Qed.
Print Assumptions C161_unnamed.
(** So an image that is renamed leaves the document that shows it broken: file 1 is
    the image, file 0 the document. *)
Theorem C161_missed_refuted : exists root v s p doc, load root v s = Some p /\
  (exists x, In x (get_link_exprs (fun _ => true) 0 doc) /\ l_target x = TPath 0 s) /\
  links_in_file (fun _ => true) 1 s 0 doc = [].
Proof.
  exists [RootC; Nor (lit "w")], [Nor (lit "main.typ")], (lit "a.png"), [RootC; Nor (lit "w"); Nor (lit "a.png")],
    (Inner IPart [Leaf LTok 1; Inner ICall [Leaf (LIdent (lit "image")) 5; Inner IArgs [Leaf LTok 1; Leaf (LStr (lit "a.png")) 7; Leaf LTok 1]]]).
  split; [reflexivity|]. split; [|reflexivity]. eexists. split; [left; reflexivity|reflexivity].
Qed.
Print Assumptions C161_missed_refuted.
(** And a document that is renamed, and has its own name in a string, gets its links
    to other files changed to itself. *)
Theorem C161_wrong_refuted : exists root v s p old new d doc, load root v s = Some p /\ walk [] p <> walk [] old /\
  rename_diff old new = Some d /\ old = root ++ v /\
  (exists x, In x (links_in_file (fun _ => true) 0 (lit "main.typ") 0 doc) /\ l_target x = TPath 0 s) /\ rename_ref d s = lit "new.typ".
Proof.
  exists [RootC; Nor (lit "w")], [Nor (lit "main.typ")], (lit "a.png"), [RootC; Nor (lit "w"); Nor (lit "a.png")], [RootC; Nor (lit "w"); Nor (lit "main.typ")], [RootC; Nor (lit "w"); Nor (lit "new.typ")], [ParC; Nor (lit "new.typ")],
    (Inner IPart [Leaf LTok 1; Inner ICall [Leaf (LIdent (lit "image")) 5; Inner IArgs [Leaf LTok 1; Leaf (LStr (lit "a.png")) 7; Leaf LTok 1]]; Leaf LTok 1; Leaf (LStr (lit "main.typ")) 10]).
  split; [reflexivity|]. split; [vm_compute; discriminate|]. split; [reflexivity|]. split; [reflexivity|]. split; [|reflexivity]. eexists. split; [left; reflexivity|reflexivity].
Qed.
Print Assumptions C161_wrong_refuted.
Example C161_nonvacuous :
  In (lit "b.typ") (index_paths C160_doc) /\ ~ In (lit "main.typ") (index_paths C160_doc) /\ map l_start (links_in_file (fun _ => true) 5 (lit "b.typ") 5 C160_doc) = [10; 29; 63].
Proof. split; [left; reflexivity|]. split; [vm_compute; intuition discriminate|reflexivity]. Qed.
