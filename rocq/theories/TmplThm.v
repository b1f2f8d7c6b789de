(** * Theorems about starting a project from a template *)

From Coq Require Import List Arith Bool Lia.
From Verif Require Import TmplModel TmplSpec.
Import ListNotations.

(** ** Trees *)

Lemma walk_dir es : walk (Dir es) = flat_map (fun e => map (cons (fst e)) (walk (snd e))) es.
Proof. cbn. induction es as [|(n & t) es IH]; cbn; [reflexivity|]. rewrite IH. reflexivity. Qed.

Fixpoint tree_ind' (P : tree -> Prop) (hf : P File)
  (hd : forall es, (forall n t, In (n, t) es -> P t) -> P (Dir es))
  (hl : P Link) (hb : P Broken) (t : tree) {struct t} : P t.
Proof.
  destruct t as [|es| |]; [exact hf| |exact hl|exact hb].
  apply hd. induction es as [|(m & u) es IH]; intros n t H; [destruct H|].
  destruct H as [H|H].
  - injection H as <- <-. apply (tree_ind' P hf hd hl hb).
  - apply (IH n t H).
Defined.

Lemma walk_ok t : forall p, In p (walk t) <-> file_at t p.
Proof.
  induction t as [|es IH| |] using tree_ind'; intro p.
  - cbn. split; [intros [<-|[]]; constructor|]. intro H. inversion H. auto.
  - rewrite walk_dir, in_flat_map. split.
    + intros ((n & t) & Hi & Hp). apply in_map_iff in Hp. destruct Hp as (q & <- & Hq).
      apply (IH n t Hi) in Hq. econstructor; eassumption.
    + intro H. inversion H as [|es' n t q Hi Hq]; subst. exists (n, t). split; [exact Hi|].
      cbn. apply in_map. apply (IH n t Hi). exact Hq.
  - cbn. split; [tauto|]. intro H. inversion H.
  - cbn. split; [tauto|]. intro H. inversion H.
Qed.

Lemma nodup_app {A} (l1 l2 : list A) : NoDup l1 -> NoDup l2 ->
  (forall x, In x l1 -> In x l2 -> False) -> NoDup (l1 ++ l2).
Proof.
  intros H1 H2 D. induction H1 as [|x l Hn Hl IH]; cbn; [exact H2|]. constructor.
  - intro H. apply in_app_or in H. destruct H as [H|H]; [contradiction|].
    apply (D x); [left; reflexivity|exact H].
  - apply IH. intros y Hy. apply D. right. exact Hy.
Qed.

Lemma walk_once t : wf t -> NoDup (walk t).
Proof.
  intro H. induction H as [| | |es Hn Hs IH]; try (cbn; repeat constructor; auto; fail).
  rewrite walk_dir. induction es as [|(n & t) es IHes]; cbn; [constructor|].
  inversion Hn as [|a b Ha Hb]; subst. apply nodup_app.
  - assert (W : NoDup (walk t)) by (apply (IH n t); left; reflexivity).
    clear -W. induction W as [|p l Hp Hl IHl]; cbn; constructor; [|exact IHl].
    intro H. apply in_map_iff in H. destruct H as (q & E & Hq). injection E as ->. contradiction.
  - apply IHes; [exact Hb| |]; intros m u Hi; [apply (Hs m u)|apply (IH m u)]; right; exact Hi.
  - intros p H1 H2. apply in_map_iff in H1. destruct H1 as (q & <- & _).
    apply in_flat_map in H2. destruct H2 as ((m & u) & Hi & H2).
    apply in_map_iff in H2. destruct H2 as (r & E & _). injection E as -> _.
    apply Ha. apply (in_map fst) in Hi. exact Hi.
Qed.

Lemma entry_in n es t : entry n es = Some t -> In (n, t) es.
Proof.
  induction es as [|(m & u) es IH]; cbn; [discriminate|].
  destruct (Nat.eqb_spec m n) as [->|]; [intro H; injection H as ->; auto|auto].
Qed.

Lemma entry_own n es t : NoDup (map fst es) -> In (n, t) es -> entry n es = Some t.
Proof.
  induction es as [|(m & u) es IH]; cbn; [tauto|]. intros H [E|E].
  - injection E as -> ->. rewrite Nat.eqb_refl. reflexivity.
  - inversion H as [|a b Ha Hb]; subst. destruct (Nat.eqb_spec m n) as [->|]; [|auto].
    exfalso. apply Ha. apply (in_map fst) in E. exact E.
Qed.

Lemma at_path_ok p : forall t u, wf t -> (at_path p t = Some u <-> place t p u).
Proof.
  induction p as [|n p IH]; intros t u W; cbn.
  - split; [intro H; injection H as <-; constructor|]. intro H. inversion H. reflexivity.
  - split.
    + destruct t as [|es| |]; try discriminate. destruct (entry n es) as [v|] eqn:E; [|discriminate].
      intro H. apply entry_in in E. inversion W as [| | |es' Hn Hs]; subst.
      econstructor; [exact E|]. apply IH; [apply (Hs n v E)|exact H].
    + intro H. inversion H as [|es m v q w Hi Hp]; subst. inversion W as [| | |es' Hn Hs]; subst.
      rewrite (entry_own _ _ _ Hn Hi). apply IH; [apply (Hs n v Hi)|exact Hp].
Qed.

Lemma place_wf t p u : place t p u -> wf t -> wf u.
Proof.
  induction 1 as [|es n t p u Hi Hp IH]; [auto|]. intro W. apply IH.
  inversion W as [| | |es' Hn Hs]; subst. apply (Hs n t Hi).
Qed.

(** ** Paths *)

Lemma names_map p : names (map Name p) = Some p.
Proof. induction p as [|n p IH]; cbn; [reflexivity|]. rewrite IH. reflexivity. Qed.

Lemma names_app a b : names (a ++ b) =
  match names a, names b with Some x, Some y => Some (x ++ y) | _, _ => None end.
Proof.
  induction a as [|c a IH]; cbn; [destruct (names b); reflexivity|].
  destruct c; auto. rewrite IH. destruct (names a), (names b); reflexivity.
Qed.

Lemma names_up a b : names (a ++ Up :: b) = None.
Proof. rewrite names_app. cbn. destruct (names a); reflexivity. Qed.

Lemma norm_up out p : (exists a b, out = a ++ Up :: b) -> names (rev (norm out p)) = None.
Proof.
  revert out. induction p as [|c p IH]; intros out (a & b & ->); cbn.
  - rewrite rev_app_distr. cbn. rewrite <- app_assoc. cbn. apply names_up.
  - destruct c; try (apply IH; eauto; fail).
    + apply IH. exists (Name n :: a), b. reflexivity.
    + destruct a as [|c a]; cbn.
      * apply IH. exists [], (Up :: b). reflexivity.
      * destruct c; apply IH; eauto; eexists (_ :: _ :: a), b; reflexivity.
Qed.

Lemma norm_leads p : forall d, names (rev (norm (rev (map Name d)) p)) = leads d p.
Proof.
  induction p as [|c p IH]; intro d; cbn.
  - rewrite rev_involutive. apply names_map.
  - destruct c; auto.
    + rewrite <- IH. rewrite map_app, rev_app_distr. reflexivity.
    + destruct d as [|x d] using rev_ind.
      * cbn. apply norm_up. exists [], []. reflexivity.
      * clear IHd. rewrite map_app, rev_app_distr. cbn [map rev app].
        rewrite removelast_last. rewrite <- IH.
        destruct (d ++ [x]) eqn:E; [destruct d; discriminate|reflexivity].
Qed.

Lemma leads_root d p : leads d (Root :: p) = leads d p.
Proof. reflexivity. Qed.

Lemma join_leads d p : join d p = leads (match p with Root :: _ => [] | _ => d end) p.
Proof.
  unfold join. destruct p as [|[n| | |] p]; try apply norm_leads.
  change (norm [] p) with (norm (rev (map Name [])) p). rewrite norm_leads. reflexivity.
Qed.

Lemma leads_app p q : forall d, leads d (p ++ q) =
  match leads d p with Some x => leads x q | None => None end.
Proof.
  induction p as [|c p IH]; intro d; cbn; [reflexivity|]. destruct c; auto.
  destruct d; auto.
Qed.

Lemma leads_names ns : forall d, leads d (map Name ns) = Some (d ++ ns).
Proof.
  induction ns as [|n ns IH]; intro d; cbn; [rewrite app_nil_r; reflexivity|].
  rewrite IH, <- app_assoc. reflexivity.
Qed.

(** ** Copying *)

Lemma strip_app d p : strip d (d ++ p) = Some p.
Proof. induction d as [|a d IH]; cbn; [reflexivity|]. rewrite Nat.eqb_refl. exact IH. Qed.

(** The copy of a list of files. *)
Definition copied (k : package) (dir : path) (ps : list path) : list (path * option nat) :=
  map (fun p => (p, content k (dir ++ p))) ps.

(** A project directory that copying may begin with. *)
Definition fresh (j : project) : Prop := match j with NoDir | Has _ => True | NotDir => False end.

Lemma entries_create p d j : entries (create p d j) = entries j ++ [(p, Some d)].
Proof. destruct j; reflexivity. Qed.

Lemma copy_ok writable k dir ps : forall j o j', fresh j ->
  copy writable k dir (map (app dir) ps) j = (o, j') ->
  exists done rest, ps = done ++ rest /\ entries j' = entries j ++ copied k dir done /\
    (forall p, In p done -> content k (dir ++ p) <> None /\ writable p = true /\ p <> []) /\
    fresh j' /\ (done = [] -> j' = j) /\
    match o with
    | Done => rest = []
    | Unreadable => exists p ps', rest = p :: ps' /\ content k (dir ++ p) = None
    | Unwritable => exists p ps', rest = p :: ps' /\ content k (dir ++ p) <> None /\
                      (p = [] \/ writable p = false)
    | _ => False
    end.
Proof.
  induction ps as [|p ps IH]; intros j o j' F H; cbn in H.
  - injection H as <- <-. exists [], []. cbn. rewrite app_nil_r. repeat split; auto; tauto.
  - rewrite strip_app in H. destruct (content k (dir ++ p)) as [d|] eqn:C.
    + destruct p as [|n p].
      * injection H as <- <-. exists [], ([] :: ps). cbn. rewrite app_nil_r.
        repeat split; auto; try tauto. exists [], ps. repeat split; auto. congruence.
      * destruct (writable (n :: p)) eqn:W.
        -- destruct (IH (create (n :: p) d j) o j') as (done & rest & E & En & G & F' & _ & O).
           { destruct j; cbn; auto. } { exact H. }
           exists ((n :: p) :: done), rest. rewrite E. split; [reflexivity|].
           rewrite En, entries_create, <- app_assoc. cbn. rewrite C.
           split; [reflexivity|]. split.
           { intros q [<-|Hq]; [|apply G; exact Hq]. rewrite C. repeat split; auto; discriminate. }
           split; [exact F'|]. split; [discriminate|exact O].
        -- injection H as <- <-. exists [], ((n :: p) :: ps). cbn. rewrite app_nil_r.
           repeat split; auto; try tauto. exists (n :: p), ps. repeat split; auto. congruence.
    + injection H as <- <-. exists [], (p :: ps). cbn. rewrite app_nil_r.
      repeat split; auto; try tauto. exists p, ps. auto.
Qed.

Lemma copied_keys k dir ps : map fst (copied k dir ps) = ps.
Proof. unfold copied. rewrite map_map. apply map_id. Qed.

(** ** C168 *)

(** If the project is started, the directory was missing or empty, and now has
    a copy of each file of the template and nothing else. *)
Theorem C168_copy : forall writable k m j j', wf (root k) ->
  scaffold writable k m j = (Done, j') ->
  (j = NoDir \/ j = Has []) /\
  exists dir t, leads [] (m_path m) = Some dir /\ place (root k) dir t /\ copy_of k dir t j'.
Proof.
  intros writable k m j j' W H. unfold scaffold in H.
  assert (D : (j = NoDir \/ j = Has []) /\
    match join [] (m_path m) with
    | None => (Outside, j)
    | Some dir => match at_path dir (root k) with
                  | None => (NoTemplate, j)
                  | Some t => copy writable k dir (scan dir t) j end end = (Done, j')).
  { destruct j as [| |[|e es]]; try discriminate; auto. }
  clear H. destruct D as (D & H). split; [exact D|].
  rewrite join_leads in H.
  replace (leads match m_path m with Root :: _ => [] | _ => [] end (m_path m)) with (leads [] (m_path m)) in H
    by (destruct (m_path m) as [|[n| | |] p]; reflexivity).
  destruct (leads [] (m_path m)) as [dir|]; [|discriminate].
  destruct (at_path dir (root k)) as [t|] eqn:A; [|discriminate].
  exists dir, t. split; [reflexivity|]. apply at_path_ok in A; [|exact W]. split; [exact A|].
  pose proof (place_wf _ _ _ A W) as Wt.
  unfold scan in H. apply copy_ok in H; [|destruct D as [->| ->]; exact I].
  destruct H as (done & rest & E & En & G & F & N & ->). rewrite app_nil_r in E. subst done.
  assert (Ej : entries j = []) by (destruct D as [->| ->]; reflexivity).
  rewrite Ej in En. cbn in En.
  assert (Q : forall p x, In (p, x) (entries j') <->
        file_at t p /\ exists d, x = Some d /\ content k (dir ++ p) = Some d).
  { intros p x. rewrite En. unfold copied. rewrite in_map_iff. split.
    - intros (q & Eq & Hq). injection Eq as -> <-. split; [apply walk_ok; exact Hq|].
      destruct (G p Hq) as (C & _). destruct (content k (dir ++ p)) as [d|]; [|congruence]. eauto.
    - intros (Hf & d & -> & C). exists p. rewrite C. split; [reflexivity|]. apply walk_ok. exact Hf. }
  destruct j' as [| |es]; cbn in *; [|contradiction|].
  - intros p Hf. apply walk_ok in Hf. destruct (walk t); [destruct Hf|discriminate].
  - split; [|exact Q]. rewrite En, copied_keys. apply walk_once. exact Wt.
Qed.
Print Assumptions C168_copy.

(** A directory with entries, or a file in its place, is refused and left as
    it is. *)
Theorem C168_refused : forall writable k m j, j <> NoDir -> j <> Has [] ->
  fst (scaffold writable k m j) <> Done /\ snd (scaffold writable k m j) = j /\
  init writable k m j = (None, j).
Proof.
  intros writable k m j H1 H2. unfold init, scaffold.
  destruct j as [| |[|e es]]; try congruence; cbn; repeat split; discriminate.
Qed.
Print Assumptions C168_refused.

(** Whatever happens, nothing that was in the directory is changed, and what is
    new are copies of files of the template. *)
Theorem C168_only : forall writable k m j o j', wf (root k) ->
  scaffold writable k m j = (o, j') ->
  j' = j \/
  exists dir t new, leads [] (m_path m) = Some dir /\ place (root k) dir t /\
    entries j' = entries j ++ new /\
    forall p x, In (p, x) new -> file_at t p /\ x = content k (dir ++ p) /\ x <> None.
Proof.
  intros writable k m j o j' W H. unfold scaffold in H.
  assert (D : j' = j \/ (fresh j /\
    match join [] (m_path m) with
    | None => (Outside, j)
    | Some dir => match at_path dir (root k) with
                  | None => (NoTemplate, j)
                  | Some t => copy writable k dir (scan dir t) j end end = (o, j'))).
  { destruct j as [| |[|e es]]; [right|left|right|left]; try (split; [exact I|exact H]); congruence. }
  clear H. destruct D as [D|(F & H)]; [auto|].
  rewrite join_leads in H.
  replace (leads match m_path m with Root :: _ => [] | _ => [] end (m_path m)) with (leads [] (m_path m)) in H
    by (destruct (m_path m) as [|[n| | |] p]; reflexivity).
  destruct (leads [] (m_path m)) as [dir|]; [|left; congruence].
  destruct (at_path dir (root k)) as [t|] eqn:A; [|left; congruence].
  right. exists dir, t. apply at_path_ok in A; [|exact W].
  unfold scan in H. apply copy_ok in H; [|exact F].
  destruct H as (done & rest & E & En & G & _). exists (copied k dir done).
  repeat split; auto; unfold copied in H; apply in_map_iff in H; destruct H as (q & Eq & Hq);
  injection Eq as -> <-.
  - apply walk_ok. rewrite E. apply in_or_app. auto.
  - reflexivity.
  - apply (G p Hq).
Qed.
Print Assumptions C168_only.

(** It is started whenever it can be. *)
Theorem C168_starts : forall writable k m j dir es, wf (root k) ->
  (j = NoDir \/ j = Has []) -> leads [] (m_path m) = Some dir -> place (root k) dir (Dir es) ->
  (forall p, file_at (Dir es) p -> content k (dir ++ p) <> None /\ writable p = true) ->
  exists j', init writable k m j = (Some (m_entry m), j').
Proof.
  intros writable k m j dir es W D L P G. unfold init, scaffold.
  assert (F : fresh j) by (destruct D as [->| ->]; exact I).
  assert (J : join [] (m_path m) = Some dir).
  { rewrite join_leads, <- L. destruct (m_path m) as [|[n| | |] p]; reflexivity. }
  assert (A : at_path dir (root k) = Some (Dir es)) by (apply at_path_ok; assumption).
  rewrite J, A.
  destruct (copy writable k dir (scan dir (Dir es)) j) as [o j'] eqn:C.
  assert (O : o = Done).
  { unfold scan in C. apply copy_ok in C; [|exact F].
    destruct C as (done & rest & E & _ & _ & _ & _ & O).
    assert (R : forall p ps', rest = p :: ps' -> file_at (Dir es) p).
    { intros p ps' ->. apply walk_ok. rewrite E. apply in_or_app. right. left. reflexivity. }
    destruct o; auto; try contradiction.
    - destruct O as (p & ps' & Er & C). exfalso. apply (G p (R p ps' Er)). exact C.
    - destruct O as (p & ps' & Er & _ & [->|C]).
      + pose proof (R _ _ Er) as X. inversion X.
      + destruct (G p (R p ps' Er)). congruence. }
  subst o. exists j'. destruct D as [->| ->]; reflexivity.
Qed.
Print Assumptions C168_starts.

(** Paths of manifests that leave the package are refused. *)
Theorem C168_outside : forall writable k m j, leads [] (m_path m) = None ->
  init writable k m j = (None, j).
Proof.
  intros writable k m j L. unfold init, scaffold.
  assert (J : join [] (m_path m) = None).
  { rewrite join_leads, <- L. destruct (m_path m) as [|[n| | |] p]; reflexivity. }
  rewrite J. destruct j as [| |[|e es]]; reflexivity.
Qed.
Print Assumptions C168_outside.

(** The entry that is shown before is the entry the project gets, for entry
    points that are plain paths and templates that have them. *)
Theorem C168_entry : forall writable k m j j' ns d, wf (root k) ->
  m_entry m = map Name ns -> scaffold writable k m j = (Done, j') ->
  In (ns, Some d) (entries j') -> get_entry k m = Some d.
Proof.
  intros writable k m j j' ns d W E H HI.
  destruct (C168_copy _ _ _ _ _ W H) as (_ & dir & t & L & P & C).
  destruct j' as [| |es]; cbn in HI; try tauto. cbn in C. destruct C as (_ & C).
  apply C in HI. destruct HI as (_ & d' & X & Y). injection X as <-.
  unfold get_entry. rewrite join_leads.
  replace (leads match m_path m ++ [Name main_typ] with Root :: _ => [] | _ => [] end
             (m_path m ++ [Name main_typ])) with (leads [] (m_path m ++ [Name main_typ]))
    by (destruct (m_path m) as [|[n| | |] p]; reflexivity).
  rewrite leads_app, L. cbn [leads]. rewrite removelast_last, join_leads, E.
  replace (leads match map Name ns with Root :: _ => [] | _ => dir end (map Name ns))
    with (leads dir (map Name ns)) by (destruct ns; reflexivity).
  rewrite leads_names. exact Y.
Qed.
Print Assumptions C168_entry.

(** A package with a template of two files, a link and another file. *)
Definition sample : package :=
  mkPackage (Dir [(9, File); (5, Dir [(0, File); (1, Dir [(2, File)]); (3, Link)])])
            (fun p => match p with [5; 0] => Some 70 | [5; 1; 2] => Some 71 | [9] => Some 72 | _ => None end).

(** Finding: nothing checks that the template has the entry point: the command
    succeeds and answers with a path of no file; and for an entry point that
    leaves the template, the entry shown before is a file the project lacks. *)
Theorem C168_no_entry : exists k m j', wf (root k) /\
  init (fun _ => true) k m NoDir = (Some (m_entry m), j') /\
  m_entry m = [Up; Name 9] /\ get_entry k m = Some 72 /\ ~ In (Some 72) (map snd (entries j')).
Proof.
  exists sample, (mkManifest [Name 5] [Up; Name 9]). eexists. split; [|split; [reflexivity|]].
  - repeat (constructor; cbn; try (intros; lia); auto; try (intros [H|H]; lia));
    intros n t H; repeat (destruct H as [H|H]; [injection H as <- <-|]); try destruct H; repeat constructor; cbn; try lia;
    intros n t H; repeat (destruct H as [H|H]; [injection H as <- <-|]); try destruct H; repeat constructor; cbn; try lia;
    intros n t H; repeat (destruct H as [H|H]; [injection H as <- <-|]); try destruct H; repeat constructor.
  - repeat split. cbn. intros [H|[H|[]]]; discriminate.
Qed.
Print Assumptions C168_no_entry.

(** Refuted: a failure does not leave the directory as it was, and then trying
    again is refused although the cause is gone. *)
Theorem C168_undone_refuted : exists k m j j',
  scaffold (fun p => match p with [1; 2] => false | _ => true end) k m j = (Unwritable, j') /\
  j = NoDir /\ j' = Has [([0], Some 70)] /\
  scaffold (fun _ => true) k m j' = (NotEmpty, j') /\
  fst (scaffold (fun _ => true) k m j) = Done.
Proof.
  exists sample, (mkManifest [Name 5] [Name 0]), NoDir, (Has [([0], Some 70)]). repeat split.
Qed.
Print Assumptions C168_undone_refuted.

Example C168_nonvacuous :
  wf (root sample) /\
  init (fun _ => true) sample (mkManifest [Here; Name 5] [Name 0]) (Has []) =
    (Some [Name 0], Has [([0], Some 70); ([1; 2], Some 71)]) /\
  get_entry sample (mkManifest [Here; Name 5] [Name 0]) = Some 70 /\
  leads [] [Here; Name 5] = Some [5] /\ leads [] [Name 5; Up; Up; Name 5] = None.
Proof.
  split; [|repeat split]. unfold sample. cbn.
  repeat (constructor; cbn; try (intros; lia); auto; try (intros [H|H]; lia));
    intros n t H; repeat (destruct H as [H|H]; [injection H as <- <-|]); try destruct H; repeat constructor; cbn; try lia;
    intros n t H; repeat (destruct H as [H|H]; [injection H as <- <-|]); try destruct H; repeat constructor; cbn; try lia;
    intros n t H; repeat (destruct H as [H|H]; [injection H as <- <-|]); try destruct H; repeat constructor.
Qed.
