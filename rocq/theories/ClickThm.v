(** Theorems about jumps between the document and the source. *)
From Coq Require Import List ZArith NArith Bool Lia.
From Verif Require Import ClickModel ClickSpec ClickProof ClickFindProof.
Import ListNotations.
Open Scope Z_scope.

(** * C134: a click on the document *)

Theorem C134_exact : forall w f c r, from_click w f c = r <-> answers w f c r.
Proof. intros w f c r. destruct (answers_ok w f) as (H1 & H2). split; [intros <-; auto|auto]. Qed.
Print Assumptions C134_exact.

Theorem C134_inside : forall w f c s o, straight f -> sourced f -> from_click w f c = Some (s, o) -> under w f c s o.
Proof. intros w f c s o Hs Hd H. apply C134_exact in H. apply click_inside; auto. Qed.
Print Assumptions C134_inside.

Theorem C134_finds : forall w f c s o, (forall s, w s <> None) -> straight f -> sourced f -> linkless f -> under w f c s o -> from_click w f c <> None.
Proof. intros. eapply click_finds; eauto. Qed.
Print Assumptions C134_finds.

(** A page with a group of two glyphs on a rectangle. *)
Definition still : transform := {| sx := 1; ky := 0; kx := 0; sy := 1; tx := 0; ty := 0 |}.
Definition sp (n : N) : span := (2 ^ 48 + n)%N.
Definition gl (a : Z) (n : N) : glyph := {| advance := a; gspan := sp n; goff := 3; count := 2 |}.
Definition inner : frame := Frame [((10, 20), Text 8 [gl 5 7; gl 6 9])].
Definition page : frame := Frame [((0, 0), Rect (200, 200) (sp 1)); ((100, 100), Group still inner)].
Definition know : nodes := fun s => Some true.
Example C134_nonvacuous :
  straight page /\ sourced page /\ linkless page /\
  from_click know page (116, 115) = Some (sp 9, 3%nat) /\ from_click know page (120, 115) = Some (sp 9, 5%nat) /\ from_click know page (122, 115) = Some (sp 1, 0%nat).
Proof.
  assert (G : forall pos t f, In (pos, Group t f) [((0, 0), Rect (200, 200) (sp 1)); ((100, 100), Group still inner)] -> t = still /\ f = inner).
  { intros pos t f [E|[E|[]]]; [discriminate|]. injection E as _ <- <-. auto. }
  assert (T : forall pos size gs, ~ In (pos, Text size gs) [((0, 0), Rect (200, 200) (sp 1)); ((100, 100), Group still inner)]).
  { intros pos size gs [E|[E|[]]]; discriminate. }
  split; [|split; [|split]].
  - constructor. intros pos t f Hin. apply G in Hin. destruct Hin as (-> & ->). split; [repeat split|]. constructor. intros pos' t f [E|[]]. discriminate.
  - constructor.
    + intros pos t f Hin. apply G in Hin. destruct Hin as (-> & ->). constructor.
      * intros pos' t f [E|[]]. discriminate.
      * intros pos' size gs g [E|[]] Hg. injection E as <- <- <-. destruct Hg as [<-|[<-|[]]]; vm_compute; discriminate.
    + intros pos size gs g Hin. destruct (T _ _ _ Hin).
  - constructor.
    + intros pos t f Hin. apply G in Hin. destruct Hin as (-> & ->). constructor.
      * intros pos' t f [E|[]]. discriminate.
      * intros pos' size [E|[]]. discriminate.
    + intros pos size [E|[E|[]]]; discriminate.
  - split; [|split]; vm_compute; reflexivity.
Qed.

(** With a transformation the click finds what is not under it. *)
Definition moved : frame := Frame [((0, 0), Group {| sx := 1; ky := 0; kx := 0; sy := 1; tx := 50; ty := 0 |} inner)].
Theorem C134_transform_refuted : exists w f c s o, sourced f /\ from_click w f c = Some (s, o) /\ forall s' o', ~ under w f c s' o'.
Proof.
  exists know, moved, (12, 15), (sp 7), 3%nat. split; [|split; [vm_compute; reflexivity|]].
  - constructor.
    + intros pos t f [E|[]]. injection E as _ _ <-. constructor.
      * intros pos' t' f [E|[]]. discriminate.
      * intros pos' size gs g [E|[]] Hg. injection E as <- <- <-. destruct Hg as [<-|[<-|[]]]; vm_compute; discriminate.
    + intros pos size gs g [E|[]]. discriminate.
  - intros s' o' H. inversion H as [l c pos size a g b o Hin Ho Hh|l c pos size s Hin Ho|l c pos size s Hin Ho|l c pos t f c' s o Hin Hi Hu]; subst;
      (destruct Hin as [E|[]]; try discriminate E). injection E as <- <- <-. unfold inward in Hi. cbn [sx ky kx sy tx ty fst snd] in Hi.
    inversion Hu as [l2 c2 pos size a g b o2 Hin Ho Hh|l2 c2 pos size s Hin Ho|l2 c2 pos size s Hin Ho|l2 c2 pos t f c3 s o2 Hin Hi2 Hu2]; subst;
      (destruct Hin as [E|[]]; try discriminate E). injection E as <- <- E. unfold on in Ho. cbn [fst snd] in Ho.
    destruct a as [|g1 a]; cbn [app] in E.
    + injection E as <- _. change (sum_advance []) with 0 in Ho. cbn in Ho. lia.
    + injection E as <- E. destruct a as [|g2 a]; cbn [app] in E.
      * injection E as <- _. change (sum_advance [gl 5 7]) with 5 in Ho. cbn in Ho. lia.
      * injection E as <- E. destruct a; discriminate.
Qed.
Print Assumptions C134_transform_refuted.

(** A glyph of no file under the click is not counted, so the glyphs after it
    are taken to be where it is. *)
Theorem C134_detached_refuted : exists w f c s o, straight f /\ from_click w f c = Some (s, o) /\ forall s' o', of_file s' -> ~ under w f c s' o'.
Proof.
  exists know, (Frame [((10, 20), Text 8 [{| advance := 5; gspan := 1%N; goff := 0; count := 1 |}; gl 6 9])]), (12, 15), (sp 9), 3%nat.
  split; [|split; [vm_compute; reflexivity|]].
  - constructor. intros pos t f [E|[]]. discriminate.
  - intros s' o' Hf H. inversion H as [l c pos size a g b o Hin Ho Hh|l c pos size s Hin Ho|l c pos size s Hin Ho|l c pos t f c' s o Hin Hi Hu]; subst;
      (destruct Hin as [E|[]]; try discriminate E). injection E as <- <- E. unfold on in Ho. cbn [fst snd] in Ho.
    destruct a as [|g1 a]; cbn [app] in E.
    + injection E as <- _. vm_compute in Hf. destruct (Hf eq_refl).
    + injection E as <- E. destruct a as [|g2 a]; cbn [app] in E.
      * injection E as <- _. change (sum_advance _) with 5 in Ho. cbn in Ho. lia.
      * injection E as <- E. destruct a; discriminate.
Qed.
Print Assumptions C134_detached_refuted.

(** A link in a group hides only the group. *)
Theorem C134_group_link : exists w l pos t f c s o, In (pos, Group t f) l /\ (exists p z, f = Frame [(p, Link z)] /\ on (fst pos + fst p, snd pos + snd p) z c) /\ from_click w (Frame l) c = Some (s, o).
Proof.
  exists know, [((0, 0), Rect (200, 200) (sp 1)); ((100, 100), Group still (Frame [((0, 0), Link (50, 50))]))], (100, 100), still, (Frame [((0, 0), Link (50, 50))]), (120, 120), (sp 1), 0%nat.
  split; [right; left; auto|]. split; [|vm_compute; reflexivity]. exists (0, 0), (50, 50). split; [auto|]. unfold on. cbn. lia.
Qed.
Print Assumptions C134_group_link.

(** * C135: from the cursor to the document *)

Theorem C135_pages : forall ps s l, hits s 1 ps l -> l <> [] -> from_cursor (Paged ps) (Some (true, s)) = l.
Proof.
  intros ps s l H Hl. unfold from_cursor. pose proof (pages_hits s ps 0 0 {| dis := MAX; place := (0, 0) |}) as P.
  destruct (pages s 0 ps 0 _) as [[pg b] l']. cbn in P. assert (l' = l) by (eapply hits_fun; eauto). subst l'. destruct l; [congruence|auto].
Qed.
Print Assumptions C135_pages.

Theorem C135_closest : forall ps s, valid_span s -> (forall n x, In (n, x) (paged 1 ps) -> valid_span (fst (fst x))) -> hits s 1 ps [] ->
  (from_cursor (Paged ps) (Some (true, s)) = [] /\ forall n g q p, In (n, (g, q, p)) (paged 1 ps) -> ~ same_file g s) \/
  (exists n q, from_cursor (Paged ps) (Some (true, s)) = [(n, q)] /\ closest s (paged 1 ps) n q).
Proof.
  intros ps s Hs Hv H. unfold from_cursor. pose proof (pages_hits s ps 0 0 {| dis := MAX; place := (0, 0) |}) as P.
  pose proof (pages_known s Hs ps 0) as K. assert (V : forall n x, In (n, x) (paged 1 ps) -> valid_span (fst (fst x)) /\ fst (fst x) <> s).
  { intros n x Hin. split; [eauto|]. eapply hits_none; eauto. }
  specialize (K V [] 0%nat {| dis := MAX; place := (0, 0) |}). assert (K0 : known s [] 1 {| dis := MAX; place := (0, 0) |}) by (left; split; [auto|intros n g q p []]). specialize (K K0).
  destruct (pages s 0 ps 0 _) as [[pg b] l]. cbn in P, K. assert (l = []) by (eapply hits_fun; eauto). subst l.
  destruct K as [(E & K)|(L & a & r & g & p & E & Hf & Hd & Ha & Hr)].
  - left. rewrite E, N.eqb_refl. auto.
  - right. destruct (N.eqb_spec (dis b) MAX); [lia|]. exists (S pg), (place b). split; auto. exists a, r, g, p. auto.
Qed.
Print Assumptions C135_closest.

Theorem C135_nothing : forall d s, from_cursor d None = [] /\ from_cursor d (Some (false, s)) = [] /\ from_cursor Html (Some (true, s)) = [].
Proof. auto. Qed.
Print Assumptions C135_nothing.

(** An exact place is on the glyph. *)
Lemma line_in : forall gs pos s q p, In (s, q, p) (line pos gs) -> exists a g b, gs = a ++ g :: b /\ s = gspan g /\ p = (fst pos + sum_advance a, snd pos) /\ q = p.
Proof.
  induction gs as [|g gs IH]; intros pos s q p H; [destruct H|]. destruct H as [E|H].
  - injection E as <- <- <-. exists [], g, gs. split; [reflexivity|]. split; [reflexivity|]. destruct pos as [x y]. change (sum_advance []) with 0. cbn [fst snd]. rewrite Z.add_0_r. auto.
  - destruct (IH _ _ _ _ H) as (a & g' & b & -> & -> & -> & ->). exists (g :: a), g', b. change (sum_advance (g :: a)) with (advance g + sum_advance a). cbn [fst snd]. rewrite Z.add_assoc. auto.
Qed.
Theorem C135_on_glyph : forall w s f p, shows s f p -> straight f -> upright f -> w s <> None -> exists o, under w f p s o.
Proof.
  intros w s f p (a & b & q & E & _) Hs Hu Hw. assert (Hin : In (s, q, p) (glyphs_of f)) by (rewrite E; apply in_elt). clear a b E. revert p q Hs Hu Hin.
  induction f as [l IH] using frame_rec'. intros p q Hs Hu Hin. inversion Hs as [l' Hs']; subst. inversion Hu as [l' Hu1 Hu2]; subst.
  cbn [glyphs_of] in Hin. apply in_flat_map in Hin. destruct Hin as ([pos i] & Hi & Hin). cbn [fst snd] in Hin. destruct i as [t f|size gs|size x|size x|size|]; try (destruct Hin; fail).
  - apply in_map_iff in Hin. destruct Hin as ([[g q0] p0] & E & Hg). cbn [fst snd] in E. injection E as -> -> <-. destruct (Hs' _ _ _ Hi) as ((E1 & E2 & E3 & E4 & E5 & E6) & Hf).
    destruct (IH pos t f Hi p0 q Hf (Hu1 _ _ _ Hi) Hg) as (o & Ho). exists o. eapply under_group; [exact Hi| |exact Ho]. unfold inward. rewrite E1, E2, E3, E4, E5, E6. cbn [fst snd]. lia.
  - apply line_in in Hin. destruct Hin as (a & g & b & -> & -> & -> & _). destruct (half_full w (fst pos + sum_advance a, snd pos) (fst pos + sum_advance a) g Hw) as (o & Ho). exists o.
    eapply under_glyph; [exact Hi| |exact Ho]. destruct (Hu2 _ _ _ g Hi (in_elt g a b)) as (S1 & S2). unfold on. cbn [fst snd]. lia.
Qed.
Print Assumptions C135_on_glyph.

Definition book : list frame := [Frame []; page; page].
Example C135_nonvacuous :
  hits (sp 9) 1 book [(2%nat, (115, 120)); (3%nat, (115, 120))] /\ from_cursor (Paged book) (Some (true, sp 9)) = [(2%nat, (115, 120)); (3%nat, (115, 120))] /\
  hits (sp 4) 1 book [] /\ (forall n x, In (n, x) (paged 1 book) -> valid_span (fst (fst x))) /\ valid_span (sp 4) /\ straight page /\ upright page.
Proof.
  assert (S9 : shows (sp 9) page (115, 120)).
  { exists [(sp 7, (10, 20), (110, 120))], [], (15, 20). split; [reflexivity|]. intros x [<-|[]]. vm_compute. discriminate. }
  assert (L4 : lacks (sp 4) page).
  { intros x Hx. vm_compute in Hx. destruct Hx as [<-|[<-|[]]]; vm_compute; discriminate. }
  assert (L0 : forall s, lacks s (Frame [])) by (intros s x []).
  split; [apply hits_skip; auto; apply hits_page; auto; apply hits_page; auto; constructor|].
  split; [vm_compute; reflexivity|]. split; [repeat (apply hits_skip; auto); constructor|].
  split; [intros n x Hx; vm_compute in Hx; destruct Hx as [E|[E|[E|[E|[]]]]]; injection E as <- <-; split; reflexivity|].
  split; [split; reflexivity|]. split; [apply C134_nonvacuous|].
  constructor.
  - intros pos t f [E|[E|[]]]; [discriminate|]. injection E as _ _ <-. constructor.
    + intros pos' t' f [E|[]]. discriminate.
    + intros pos' size gs g [E|[]] Hg. injection E as <- <- <-. destruct Hg as [<-|[<-|[]]]; cbn; lia.
  - intros pos size gs g [E|[E|[]]]; discriminate.
Qed.

(** The closest glyph in a group is given where it is in the group. *)
Theorem C135_closest_refuted : exists ps s n q, hits s 1 ps [] /\ from_cursor (Paged ps) (Some (true, s)) = [(n, q)] /\
  forall g q' p, In (n, (g, q', p)) (paged 1 ps) -> p <> q.
Proof.
  exists [page], (sp 8), 1%nat, (10, 20). split; [|split; [vm_compute; reflexivity|]].
  - apply hits_skip; [|constructor]. intros x Hx. vm_compute in Hx. destruct Hx as [<-|[<-|[]]]; vm_compute; discriminate.
  - intros g q' p Hin. vm_compute in Hin. destruct Hin as [E|[E|[]]]; injection E as _ _ <-; discriminate.
Qed.
Print Assumptions C135_closest_refuted.
