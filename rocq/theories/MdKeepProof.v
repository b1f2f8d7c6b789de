(** Proofs about what the conversion to Markdown keeps: depth, files, ends. *)
From Coq Require Import String.
From Coq Require Import List Arith NArith ZArith Bool Lia.
From Verif Require Import MdModel MdSpec MdProof.
Import ListNotations.
Local Open Scope nat_scope.

(** * Rendering, given what it does to the state *)

Section Render.
  Variable R : state -> state -> Prop.
  Variables PP EE : Prop.
  Hypothesis Rr : forall s, R s s.
  Hypothesis Rt : forall a b c, R a b -> R b c -> R a c.
  Variable e : env.
  Hypothesis Hw : forall n t code svg, compile e code t = inl svg -> ok R PP EE (write (Svg n t) svg).
  Ltac lift s := match goal with |- match ?f s with _ => _ end => let H := fresh in cut (ok R PP EE f); [intros H; exact (H s)|] end.
  Lemma ok_inner b c m t : ok R PP EE (render_inner e b c m t).
  Proof.
    unfold render_inner. destruct (compile e _ t) as [svg|err] eqn:E; [|apply ok_ret; auto]. destruct (assets e); [|apply ok_ret; auto].
    intros s. lift s. apply ok_bind; [auto|eapply Hw; eauto|intros; apply ok_ret; auto].
  Qed.
  Lemma ok_data r f : (forall d, ok R PP EE (f d)) -> ok R PP EE (with_data e r f).
  Proof. intros H. destruct r; cbn; [auto|]. destruct (soft_error e); [apply ok_ret; auto|apply ok_fail]. Qed.
  Hypothesis Hp : color_theme e = None \/ assets e = None \/ forall n t c, ok R PP EE (write (Svg n t) c).
  Lemma ok_render_code b c m a x i : ok R PP EE (render_code e b c m a x i).
  Proof.
    unfold render_code. intros s. cbv zeta. destruct (color_theme e) as [t|] eqn:Et; lift s.
    - apply ok_bind; [auto|apply ok_inner|]. intros r. apply ok_data. intros d. destruct (assets e) as [dir|] eqn:Ea; [|apply ok_ret; auto].
      apply ok_bind; [auto| |intros; apply ok_ret; auto]. destruct Hp as [H|[H|H]]; [congruence|congruence|auto].
    - apply ok_bind; [auto|apply ok_inner|]. intros r. apply ok_data. intros d. apply ok_bind; [auto|apply ok_inner|]. intros r'. apply ok_data. intros d'. destruct (assets e); apply ok_ret; auto.
  Qed.
End Render.

(** * Ends *)

Definition any (s s' : state) : Prop := True.
Lemma any_ok (PP EE : Prop) e inc (P : node -> Prop) :
  (forall t p, P (Include t p) -> ok any PP EE (included (inc p))) -> PP \/ (forall n, P n -> good_tables n) ->
  forall n, everywhere P n -> ok any PP EE (eval e inc n).
Proof.
  intros Hi Ht n Hn.
  assert (Rr : forall s, any s s) by (intros; exact I). assert (Rt : forall a b c, any a b -> any b c -> any a c) by (intros; exact I).
  assert (Hw : forall f c, ok any PP EE (write f c)) by (intros f c s; exact I).
  assert (Hrc : forall b c m a x i, ok any PP EE (render_code e b c m a x i)) by (intros; apply ok_render_code; auto).
  assert (Hr : forall b c i, ok any PP EE (render e b c i)).
  { intros b c i s. unfold render. cbv zeta.
    match goal with |- match bind ?m ?f ?s1 with _ => _ end => assert (H : ok any PP EE (bind m f)); [|exact (H s1)] end.
    apply ok_bind; [auto| |intros; apply Hrc]. destruct (sources e); [apply Hw|apply ok_ret; auto]. }
  refine (proj1 (eval_ok any PP EE Rr Rt e inc P _ _ _ _ _ _ _ n _)); [auto| | |auto| |auto|auto|auto].
  - intros t s. exact I.
  - intros m Hm. unfold list_item. destruct (annotate e).
    + intros s. specialize (Hm {| depth := S (depth s); prepend := prepend s; number := number s; files := files s |}). cbv zeta. destruct (m _); auto.
    + apply ok_bind; [auto|auto|intros; apply ok_ret; auto].
  - intros t. unfold contextual. destruct (remove_html e); [apply ok_ret; auto|]. intros s.
    exact (Hr (trim_hashes (prepend s)) t false {| depth := depth s; prepend := trim_hashes (prepend s); number := number s; files := files s |}).
Qed.
Lemma convert_ends e w rank :
  (forall p n, w p = Some n -> everywhere (includes_below rank (rank p)) n) -> forall k p, rank p < k -> ok any True False (convert k e w p).
Proof.
  intros Hw. induction k as [|k IH]; intros p Hk; [lia|]. cbn [convert]. destruct (w p) as [n|] eqn:E; [|apply ok_fail].
  apply ok_content; [intros; exact I|intros; exact I|]. apply (any_ok True False e (convert k e w) (includes_below rank (rank p))); auto.
  intros t q Hq s. cbn in Hq. specialize (IH q ltac:(lia) s). unfold included. destruct (convert k e w q s); auto.
Qed.

(** * The depth of lists *)

Definition deep (s s' : state) : Prop := depth s' = depth s.
Lemma render_deep e b c i : ok deep True True (render e b c i).
Proof.
  assert (Rr : forall s, deep s s) by (intros; reflexivity). assert (Rt : forall a b c, deep a b -> deep b c -> deep a c) by (unfold deep; intros; congruence).
  assert (Hw : forall f c, ok deep True True (write f c)) by (intros f t s; reflexivity).
  intros s. unfold render. cbv zeta.
  match goal with |- match bind ?m ?f ?s1 with _ => _ end => assert (H : ok deep True True (bind m f)); [|exact (H s1)] end.
  apply ok_bind; [auto| |intros; apply ok_render_code; auto]. destruct (sources e); [apply Hw|apply ok_ret; auto].
Qed.
Lemma eval_deep e inc n : ok deep True True (eval e inc n).
Proof.
  assert (Rr : forall s, deep s s) by (intros; reflexivity). assert (Rt : forall a b c, deep a b -> deep b c -> deep a c) by (unfold deep; intros; congruence).
  assert (Hw : forall f c, ok deep True True (write f c)) by (intros f t s; reflexivity).
  refine (proj1 (eval_ok deep True True Rr Rt e inc (fun _ => True) _ _ _ _ _ _ (or_introl I) n _)).
  - intros. apply ok_render_code; auto.
  - intros t s. reflexivity.
  - intros m Hm. unfold list_item. destruct (annotate e).
    + intros s. specialize (Hm {| depth := S (depth s); prepend := prepend s; number := number s; files := files s |}). cbv zeta. destruct (m _); auto. unfold deep in *. cbn in *. rewrite Hm. auto.
    + apply ok_bind; [auto|auto|intros; apply ok_ret; auto].
  - apply render_deep.
  - intros t. unfold contextual. destruct (remove_html e); [apply ok_ret; auto|]. intros s.
    exact (render_deep e (trim_hashes (prepend s)) t false {| depth := depth s; prepend := trim_hashes (prepend s); number := number s; files := files s |}).
  - intros t p _ s. unfold included. destruct (inc p s); auto. reflexivity.
  - clear. revert n. apply node_all; cbn; auto.
    + intros l H. split; [auto|]. induction H; auto.
    + intros t c args H. split; [auto|]. induction H as [|[k x] l Hx _ IH]; auto.
Qed.

(** * Files *)

Definition own (s s' : state) : Prop :=
  number s <= number s' /\
  exists new, files s' = files s ++ new /\ Forall (fun f => number s < number_of (fst f) <= number s') new /\ NoDup (map fst new).
Lemma own_refl s : own s s.
Proof. split; [auto|]. exists []. rewrite app_nil_r. repeat split; constructor. Qed.
Lemma nodup_app {A} (a b : list A) : NoDup a -> NoDup b -> (forall x, In x a -> ~ In x b) -> NoDup (a ++ b).
Proof.
  induction 1 as [|x a Hx _ IH]; intros Hb Hd; [auto|]. cbn. constructor.
  - intros H. apply in_app_or in H. destruct H as [H|H]; [auto|]. apply (Hd x); [left; auto|auto].
  - apply IH; auto. intros y Hy. apply Hd. right. auto.
Qed.
Lemma own_trans a b c : own a b -> own b c -> own a c.
Proof.
  intros (L1 & n1 & F1 & A1 & D1) (L2 & n2 & F2 & A2 & D2). split; [lia|]. exists (n1 ++ n2). rewrite F2, F1, app_assoc. split; [auto|]. split.
  - apply Forall_app. split; [eapply Forall_impl; [|exact A1]; cbn; intros; lia|eapply Forall_impl; [|exact A2]; cbn; intros; lia].
  - rewrite map_app. apply nodup_app; auto. intros f H1 H2. apply in_map_iff in H1, H2. destruct H1 as (x & <- & H1), H2 as (y & E & H2). rewrite Forall_forall in *. apply A1 in H1. apply A2 in H2. rewrite E in H2. lia.
Qed.
Lemma render_code_files e b c m a x i s : color_theme e = None \/ assets e = None ->
  match render_code e b c m a x i s with
  | Done _ s' => number s' = number s /\ exists l, files s' = files s ++ l /\ NoDup (map fst l) /\ Forall (fun f => exists t, fst f = Svg (number s) t) l
  | Failed => True
  | _ => False
  end.
Proof.
  intros H. unfold render_code, render_inner, with_data, bind, write, ret, fail. destruct (color_theme e) as [t|].
  - destruct H as [H|H]; [discriminate|]. rewrite H. destruct (compile e _ t); [|destruct (soft_error e)]; cbn; auto; (split; [auto|]; exists []; rewrite app_nil_r; repeat split; constructor).
  - destruct (assets e) as [dir|].
    + destruct (compile e _ Dark) as [d|err]; cbn; [|destruct (soft_error e); cbn; auto; split; [auto|]; exists []; rewrite app_nil_r; repeat split; constructor].
      destruct (compile e _ Light) as [l|err]; cbn; [|destruct (soft_error e); cbn; auto].
      * split; [auto|]. exists [(Svg (number s) Dark, d); (Svg (number s) Light, l)]. rewrite <- app_assoc. split; [auto|]. split; [cbn; constructor; [intros [Hx|[]]; discriminate|constructor; [intros []|constructor]]|].
        constructor; [eexists; reflexivity|constructor; [eexists; reflexivity|constructor]].
      * split; [auto|]. exists [(Svg (number s) Dark, d)]. split; [auto|]. split; [cbn; constructor; [intros []|constructor]|]. constructor; [eexists; reflexivity|constructor].
    + destruct (compile e _ Dark) as [d|err]; cbn; [|destruct (soft_error e); cbn; auto; split; [auto|]; exists []; rewrite app_nil_r; repeat split; constructor].
      destruct (compile e _ Light) as [l|err]; cbn; [|destruct (soft_error e); cbn; auto]; (split; [auto|]; exists []; rewrite app_nil_r; repeat split; constructor).
Qed.
Lemma render_own e b c i : color_theme e = None \/ assets e = None -> ok own True True (render e b c i).
Proof.
  intros H s. unfold render. cbv zeta. unfold bind at 1.
  set (s1 := {| depth := depth s; prepend := prepend s; number := S (number s); files := files s |}).
  set (src := lit "#{
// render_code
" ++ c ++ lit "
}").
  assert (E : exists l, (match sources e with Some _ => write (Typ (number s1)) src | None => ret tt end) s1 = Done tt {| depth := depth s; prepend := prepend s; number := S (number s); files := files s ++ l |} /\ (l = [] \/ l = [(Typ (S (number s)), src)])).
  { destruct (sources e); [exists [(Typ (S (number s)), src)]; auto|]. exists []. rewrite app_nil_r. auto. }
  destruct E as (l & -> & Hl). set (s2 := {| depth := depth s; prepend := prepend s; number := S (number s); files := files s ++ l |}).
  pose proof (render_code_files e b c false (lit "center") [] i s2 H) as R. destruct (render_code e b c false (lit "center") [] i s2) as [v s'| | |]; auto.
  destruct R as (Rn & l' & Rf & Rd & Ra). cbn [number files s2] in *. split; [lia|]. exists (l ++ l'). rewrite Rf, app_assoc. split; [auto|].
  assert (A' : Forall (fun f : file * text => number s < number_of (fst f) <= number s') l').
  { eapply Forall_impl; [|exact Ra]. intros f (t & Ht). rewrite Ht. cbn [number_of]. lia. }
  destruct Hl as [->| ->]; [auto|]. split; [constructor; [cbn; lia|auto]|]. cbn. constructor; [|auto]. intros Hx. apply in_map_iff in Hx. destruct Hx as (f & Hf & Hx).
  rewrite Forall_forall in Ra. apply Ra in Hx. destruct Hx as (t & Ht). congruence.
Qed.
Lemma eval_own e inc n : docs_lib e = false -> color_theme e = None \/ assets e = None -> everywhere no_include n -> ok own True True (eval e inc n).
Proof.
  intros Hd Hc Hn. refine (proj1 (eval_ok own True True own_refl own_trans e inc no_include _ _ _ _ _ _ (or_introl I) n Hn)).
  - congruence.
  - intros t s. exact (own_refl s).
  - intros m Hm. unfold list_item. destruct (annotate e).
    + intros s. specialize (Hm {| depth := S (depth s); prepend := prepend s; number := number s; files := files s |}). cbv zeta. destruct (m _); auto.
    + apply ok_bind; [apply own_trans|auto|intros; apply ok_ret; apply own_refl].
  - intros. apply render_own; auto.
  - intros t. unfold contextual. destruct (remove_html e); [apply ok_ret; apply own_refl|]. intros s.
    exact (render_own e (trim_hashes (prepend s)) t false Hc {| depth := depth s; prepend := trim_hashes (prepend s); number := number s; files := files s |}).
  - intros t p [].
Qed.

(** Every image is what the compiler gave for its theme. *)
Definition compiled (e : env) (s s' : state) : Prop :=
  exists new, files s' = files s ++ new /\ forall n t c, In (Svg n t, c) new -> exists code, compile e code t = inl c.
Lemma compiled_refl e s : compiled e s s.
Proof. exists []. rewrite app_nil_r. split; [auto|intros n t c []]. Qed.
Lemma compiled_trans e a b c : compiled e a b -> compiled e b c -> compiled e a c.
Proof.
  intros (n1 & F1 & H1) (n2 & F2 & H2). exists (n1 ++ n2). rewrite F2, F1, app_assoc. split; [auto|]. intros n t x H. apply in_app_or in H. destruct H; eauto.
Qed.
Lemma eval_compiled e inc n : color_theme e = None \/ assets e = None -> (forall p, ok (compiled e) True True (inc p)) -> ok (compiled e) True True (eval e inc n).
Proof.
  intros Hc Hi.
  assert (Hw : forall n t code svg, compile e code t = inl svg -> ok (compiled e) True True (write (Svg n t) svg)).
  { intros k t code svg E s. exists [(Svg k t, svg)]. split; [auto|]. intros k' t' c [H|[]]. injection H as <- <- <-. eauto. }
  assert (Hrc : forall b c m a x i, ok (compiled e) True True (render_code e b c m a x i)).
  { intros. apply ok_render_code; auto. { apply compiled_refl. } { apply compiled_trans. } tauto. }
  assert (Hr : forall b c i s p, match render e b c i {| depth := depth s; prepend := p; number := number s; files := files s |} with Done _ s' => compiled e s s' | _ => True end).
  { intros b c i s p. unfold render. cbn [number depth prepend files]. cbv zeta.
    match goal with |- match bind ?m ?f ?s1 with _ => _ end => assert (H : ok (compiled e) True True (bind m f)) end.
    { apply ok_bind. { apply compiled_trans. } { destruct (sources e); [|apply ok_ret; apply compiled_refl]. intros s0. eexists. split; [reflexivity|]. intros k th x [H|[]]. discriminate. } intros. auto. }
    match goal with |- match bind ?m ?f ?s1 with _ => _ end => specialize (H s1); destruct (bind m f s1) as [v s'| | |]; auto end. }
  refine (proj1 (eval_ok (compiled e) True True (compiled_refl e) (compiled_trans e) e inc (fun _ => True) _ _ _ _ _ _ (or_introl I) n _)); [auto| | | | | |].
  - intros t s. exact (compiled_refl e s).
  - intros m Hm. unfold list_item. destruct (annotate e).
    + intros s. specialize (Hm {| depth := S (depth s); prepend := prepend s; number := number s; files := files s |}). cbv zeta. destruct (m _); auto.
    + apply ok_bind; [apply compiled_trans|auto|intros; apply ok_ret; apply compiled_refl].
  - intros b c i s. specialize (Hr b c i s (prepend s)). destruct s as [d p k f]. exact Hr.
  - intros t. unfold contextual. destruct (remove_html e); [apply ok_ret; apply compiled_refl|]. intros s. apply (Hr (trim_hashes (prepend s)) t false s).
  - intros t p _ s. specialize (Hi p s). unfold included. destruct (inc p s); auto.
  - clear. revert n. apply node_all; cbn; auto.
    + intros l H. split; [auto|]. induction H; auto.
    + intros t c args H. split; [auto|]. induction H as [|[k x] l Hx _ IH]; auto.
Qed.
Lemma convert_compiled e w : color_theme e = None \/ assets e = None -> forall k p, ok (compiled e) True True (convert k e w p).
Proof.
  intros Hc. induction k as [|k IH]; intros p; cbn [convert]; [intros s; exact I|]. destruct (w p); [|apply ok_fail]. apply ok_content; [apply compiled_refl|apply compiled_trans|]. apply eval_compiled; auto.
Qed.

(** * Code kept for contexts *)

Lemma reduce_app ms ms' s : reduce (ms ++ ms') s = bind (reduce ms) (fun t => bind (reduce ms') (fun t' => ret (t ++ t'))) s.
Proof.
  revert s. induction ms as [|m ms IH]; intros s; cbn [app reduce]; unfold bind, ret in *.
  - destruct (reduce ms' s); auto.
  - destruct (m s) as [v s1| | |]; auto. rewrite IH. destruct (reduce ms s1) as [t s2| | |]; auto. destruct (reduce ms' s2); auto. rewrite app_assoc. auto.
Qed.
Definition words_of (p : part) : text := match p with Words t => t | _ => [] end.
Lemma parts_kept e inc ps : forall s,
  reduce (map (eval e inc) (flat_map nodes_of ps)) s =
  Done (concat (map words_of ps)) {| depth := depth s; prepend := prepend s ++ concat (map code_of ps); number := number s; files := files s |}.
Proof.
  induction ps as [|p ps IH]; intros s; cbn [flat_map map concat].
  - rewrite app_nil_r. destruct s. reflexivity.
  - rewrite map_app, reduce_app. unfold bind.
    assert (E : reduce (map (eval e inc) (nodes_of p)) s = Done (words_of p) {| depth := depth s; prepend := prepend s ++ code_of p; number := number s; files := files s |}).
    { destruct p; cbn [nodes_of map reduce eval words_of code_of]; unfold bind, ret, kept, keep, bind, ret; cbn.
      - rewrite !app_nil_r. destruct s. auto.
      - rewrite <- !app_assoc. auto.
      - auto. }
    rewrite E, IH. cbn. rewrite <- app_assoc. auto.
Qed.
Lemma code_end ps : concat (map code_of ps) = [] \/ exists t, concat (map code_of ps) = t ++ [10%N].
Proof.
  induction ps as [|p ps IH]; [auto|]. cbn. assert (H : code_of p = [] \/ exists t, code_of p = t ++ [10%N]).
  { destruct p; cbn; [auto|right; exists (lit "#" ++ t); auto|right; eauto]. }
  destruct IH as [->|(t & ->)]; [rewrite app_nil_r; auto|]. right. exists (code_of p ++ t). rewrite app_assoc. auto.
Qed.
Lemma trim_code ps : trim_hashes (concat (map code_of ps) ++ [35%N]) = concat (map code_of ps).
Proof.
  unfold trim_hashes. rewrite rev_app_distr. cbn. destruct (code_end ps) as [->|(t & ->)]; [auto|]. rewrite rev_app_distr. cbn. rewrite rev_involutive. auto.
Qed.
