From Coq Require Import List Arith Bool Lia.
From Verif Require Import FontModel FontSpec.
Import ListNotations.

Lemma put_length h n c : length (put h n c) = length h.
Proof. revert n. induction h as [|x h IH]; intros [|n]; cbn; congruence. Qed.
Lemma put_same h n c : n < length h -> nth_error (put h n c) n = Some c.
Proof. revert n. induction h as [|x h IH]; intros [|n] L; cbn in *; try lia; [reflexivity|apply IH; lia]. Qed.
Lemma put_other h n m c : n <> m -> nth_error (put h n c) m = nth_error h m.
Proof. revert n m. induction h as [|x h IH]; intros [|n] [|m] N; cbn; try reflexivity; try congruence. apply IH. congruence. Qed.
Lemma put_id h n c : nth_error h n = Some c -> put h n c = h.
Proof. revert n. induction h as [|x h IH]; intros [|n] E; cbn in *; try discriminate; [congruence|]. f_equal. now apply IH. Qed.

Section P.
Variables (faces : bytes -> list nat) (count : bytes -> nat) (info_of : bytes -> nat -> option info) (valid : bytes -> nat -> bool).
Notation compute := (compute valid).
Notation font_at := (font_at valid).
Notation step := (step valid).
Notation run := (run valid).
Notation made := (made valid).

(** ** Searching *)
(** What a list of fonts stands for, in a heap that only grows. *)
Definition stands (h : heap) (fs : list (info * slot)) (l : list listed) : Prop :=
  Forall2 (fun f x => fst f = fst (fst x) /\ loads h (snd f) (snd (fst x)) (snd x)) fs l.
Lemma loads_mono h h' s src i : loads h s src i -> loads (h ++ h') s src i.
Proof. intros [L D]. split; [|exact D]. rewrite nth_error_app1; [exact L|]. apply nth_error_Some. congruence. Qed.
Lemma stands_mono h h' fs l : stands h fs l -> stands (h ++ h') fs l.
Proof. intros S. induction S as [|f x fs l [A B] S IH]; constructor; [|exact IH]. split; [exact A|now apply loads_mono]. Qed.
Lemma stands_alloc h fs l x src i : stands h fs l ->
  stands (h ++ [mkCell (Some (mkLoader (Some src) i)) None]) (fs ++ [(x, mkSlot (length h) (Some match src with Buffer _ => Memory | File p => Fs p end))]) (l ++ [(x, src, i)]).
Proof.
  intros S. apply Forall2_app; [now apply stands_mono|]. repeat constructor. cbn. rewrite nth_error_app2, Nat.sub_diag by lia. reflexivity.
Qed.
Definition grows (h h' : heap) : Prop := exists e, h' = h ++ e.
Lemma grows_refl h : grows h h. Proof. exists []. now rewrite app_nil_r. Qed.
Lemma grows_trans a b c : grows a b -> grows b c -> grows a c.
Proof. intros [x ->] [y ->]. exists (x ++ y). now rewrite app_assoc. Qed.

Lemma flush_faces d p b is h fs l : d p = Some b -> stands h fs l ->
  let r := fold_left (flush_one info_of d) (map (fun i => (p, i)) is) (h, fs) in
  grows h (fst r) /\ stands (fst r) (snd r) (l ++ flat_map (fun i => match info_of b i with Some x => [(x, File p, i)] | None => [] end) is).
Proof.
  intros D. revert h fs l. induction is as [|i is IH]; intros h fs l S; cbn.
  - rewrite app_nil_r. split; [apply grows_refl|exact S].
  - unfold flush_one at 2 4 6. cbn [fst snd]. rewrite D. destruct (info_of b i) as [x|]; cbn [alloc fst snd].
    + destruct (IH _ _ _ (stands_alloc h fs l x (File p) i S)) as [G T]. split.
      * eapply grows_trans; [|exact G]. now eexists.
      * cbn. rewrite <- app_assoc in T. exact T.
    + cbn [app]. now apply IH.
Qed.
Lemma flush_files d files h fs l : stands h fs l ->
  let r := fold_left (flush_one info_of d) (flat_map (db_file faces d) files) (h, fs) in
  grows h (fst r) /\ stands (fst r) (snd r) (l ++ flat_map (in_file faces info_of d) files).
Proof.
  revert h fs l. induction files as [|p files IH]; intros h fs l S; cbn.
  - rewrite app_nil_r. split; [apply grows_refl|exact S].
  - rewrite fold_left_app. unfold db_file at 2 4 6, in_file at 1. destruct (d p) as [b|] eqn:D; [|cbn; now apply IH].
    destruct (flush_faces d p b (faces b) h fs l D S) as [G T].
    destruct (fold_left (flush_one info_of d) (map (fun i => (p, i)) (faces b)) (h, fs)) as [h1 f1] eqn:E. cbn [fst snd] in *.
    destruct (IH h1 f1 _ T) as [G' T']. split; [eapply grows_trans; eassumption|]. now rewrite app_assoc.
Qed.
Lemma memory_faces b is h fs l : stands h fs l ->
  let r := fold_left (memory_one info_of b) is (h, fs) in
  grows h (fst r) /\ stands (fst r) (snd r) (l ++ flat_map (fun i => match info_of b i with Some x => [(x, Buffer b, i)] | None => [] end) is).
Proof.
  revert h fs l. induction is as [|i is IH]; intros h fs l S; cbn.
  - rewrite app_nil_r. split; [apply grows_refl|exact S].
  - unfold memory_one at 2 4 6. cbn [fst snd]. destruct (info_of b i) as [x|]; cbn [alloc fst snd].
    + destruct (IH _ _ _ (stands_alloc h fs l x (Buffer b) i S)) as [G T]. split.
      * eapply grows_trans; [|exact G]. now eexists.
      * cbn. rewrite <- app_assoc in T. exact T.
    + cbn [app]. now apply IH.
Qed.
Lemma memory_buffers data h fs l : stands h fs l ->
  let r := fold_left (fun acc b => fold_left (memory_one info_of b) (seq 0 (count b)) acc) data (h, fs) in
  grows h (fst r) /\ stands (fst r) (snd r) (l ++ flat_map (in_buffer count info_of) data).
Proof.
  revert h fs l. induction data as [|b data IH]; intros h fs l S; cbn.
  - rewrite app_nil_r. split; [apply grows_refl|exact S].
  - destruct (memory_faces b (seq 0 (count b)) h fs l S) as [G T].
    destruct (fold_left (memory_one info_of b) (seq 0 (count b)) (h, fs)) as [h1 f1] eqn:E. cbn [fst snd] in *.
    destruct (IH h1 f1 _ T) as [G' T']. split; [eapply grows_trans; eassumption|]. unfold in_buffer at 1. now rewrite app_assoc.
Qed.
Lemma user_paths cwd d ps x :
  let y := fold_left (fun x p => match snd p with Some files => search_dir faces cwd d (fst p) files x | None => search_file faces cwd d (fst p) x end) ps x in
  x_fonts y = x_fonts x /\ x_paths y = x_paths x ++ map (fun p => shown cwd (fst p)) ps /\
  x_db y = x_db x ++ flat_map (db_file faces d) (flat_map (fun p => match snd p with Some files => files | None => [fst p] end) ps).
Proof.
  revert x. induction ps as [|[p fs] ps IH]; intros x; cbn.
  - now rewrite !app_nil_r.
  - destruct (IH (match fs with Some files => search_dir faces cwd d p files x | None => search_file faces cwd d p x end)) as (A & B & C).
    split; [rewrite A; now destruct fs|]. split.
    + rewrite B. destruct fs; cbn; rewrite <- app_assoc; cbn; unfold shown; now destruct p, cwd.
    + rewrite C. destruct fs; cbn; rewrite ?flat_map_app; cbn; now rewrite <- !app_assoc, ?app_nil_r.
Qed.
Lemma resolve cwd d o h : exists h' x, resolve_opts faces count info_of cwd d o h new_searcher = Some (h', x) /\
  grows h h' /\ stands h' (x_fonts x) (expected faces count info_of d o) /\ x_paths x = map (fun p => shown cwd (fst p)) (o_paths o) /\ x_db x = [].
Proof.
  unfold resolve_opts. pose proof (user_paths cwd d (o_paths o) new_searcher) as U. cbv zeta in U.
  set (x1 := fold_left _ _ new_searcher) in *. destruct U as (A & B & C). cbn in A, B, C.
  set (files := flat_map (fun p => match snd p with Some files => files | None => [fst p] end) (o_paths o)) in *.
  set (x2 := match o_system o with Some fs => search_system faces d fs x1 | None => x1 end).
  assert (X : x_fonts x2 = [] /\ x_paths x2 = map (fun p => shown cwd (fst p)) (o_paths o) /\
    x_db x2 = flat_map (db_file faces d) (files ++ match o_system o with Some fs => fs | None => [] end)).
  { unfold x2. destruct (o_system o) as [fs|]; cbn; rewrite A, B, C, flat_map_app; repeat split; cbn; now rewrite ?app_nil_r. }
  destruct X as (A2 & B2 & C2). unfold flush. rewrite A2, B2, C2.
  destruct (flush_files d (files ++ match o_system o with Some fs => fs | None => [] end) h [] [] (Forall2_nil _)) as [G T].
  destruct (fold_left (flush_one info_of d) _ (h, [])) as [h1 f1]. cbn [fst snd app] in *. unfold add_memory_fonts. cbn [x_db x_fonts x_paths].
  destruct (memory_buffers (o_embedded o) h1 f1 _ T) as [G' T'].
  destruct (fold_left _ (o_embedded o) (h1, f1)) as [h2 f2]. cbn [fst snd] in *. exists h2, (mkSearcher f2 (map (fun p => shown cwd (fst p)) (o_paths o)) []).
  split; [reflexivity|]. split; [eapply grows_trans; eassumption|]. split; [|now split]. unfold expected. fold files. rewrite flat_map_app, <- app_assoc in T'. exact T'.
Qed.

(** ** Use *)
Lemma font_at_loaded d h r i s v : nth_error (r_slots r) i = Some s -> (exists x, nth_error h (s_cell s) = Some (mkCell x (Some v))) -> font_at d h r i = Some (h, v).
Proof. intros S (x & E). unfold FontModel.font_at, get_or_init. rewrite S, E. cbn. now rewrite (put_id h _ _ E). Qed.
Lemma font_at_pending d h r i s src k : nth_error (r_slots r) i = Some s -> nth_error h (s_cell s) = Some (mkCell (Some (mkLoader (Some src) k)) None) ->
  font_at d h r i = Some (put h (s_cell s) (mkCell None (Some (made (now d src) k))), made (now d src) k).
Proof. intros S E. unfold FontModel.font_at, get_or_init. rewrite S, E. cbn. unfold FontModel.compute, load. cbn. destruct src as [b|p]; cbn; [reflexivity|]. now destruct (d p). Qed.
Lemma font_at_sound d h r i h' v : sound h -> font_at d h r i = Some (h', v) -> sound h' /\ length h' = length h /\
  (exists s, nth_error (r_slots r) i = Some s /\ nth_error h' (s_cell s) = Some (mkCell None (Some v))) /\
  forall n w, nth_error h n = Some (mkCell None (Some w)) -> nth_error h' n = Some (mkCell None (Some w)).
Proof.
  intros S E. destruct (nth_error (r_slots r) i) as [s|] eqn:Si; [|unfold FontModel.font_at in E; rewrite Si in E; discriminate].
  destruct (nth_error h (s_cell s)) as [c|] eqn:C; [|unfold FontModel.font_at, get_or_init in E; rewrite Si, C in E; discriminate].
  pose proof S as S'. unfold sound in S'. rewrite Forall_forall in S'. destruct (S' c (nth_error_In _ _ C)) as [(src & k & ->)|(w & ->)].
  - rewrite (font_at_pending d h r i s src k Si C) in E. injection E as <- <-.
    assert (L : s_cell s < length h) by (apply nth_error_Some; congruence).
    split; [|split; [apply put_length|split; [exists s; split; [reflexivity|now apply put_same]|]]].
    + apply Forall_forall. intros c I. apply In_nth_error in I. destruct I as (n & I). destruct (Nat.eq_dec (s_cell s) n) as [<-|N].
      * rewrite put_same in I by exact L. injection I as <-. right. now eexists.
      * rewrite put_other in I by exact N. now apply S', nth_error_In with n.
    + intros n w I. rewrite put_other; [exact I|]. intros <-. congruence.
  - rewrite (font_at_loaded d h r i s w Si) in E by (exists None; exact C). injection E as <- <-. split; [exact S|]. split; [reflexivity|]. split; [now exists s|trivial].
Qed.
Lemma step_keeps st e st' o : sound (fst st) -> step st e = Some (st', o) -> sound (fst st') /\ length (fst st) <= length (fst st') /\
  forall n w, nth_error (fst st) n = Some (mkCell None (Some w)) -> nth_error (fst st') n = Some (mkCell None (Some w)).
Proof.
  intros S E. destruct st as [h d]. destruct e as [r i|d'|src i dsc]; cbn in *.
  - destruct (font_at d h r i) as [[h' v]|] eqn:F; [|discriminate]. injection E as <- <-. apply font_at_sound in F; [|exact S]. destruct F as (A & B & _ & C). cbn. split; [exact A|]. split; [lia|exact C].
  - injection E as <- <-. cbn. split; [exact S|]. split; [lia|auto].
  - injection E as <- <-. cbn. split; [|split; [rewrite app_length; lia|intros n w I; rewrite nth_error_app1; [exact I|apply nth_error_Some; congruence]]].
    apply Forall_app. split; [exact S|]. constructor; [left; now eexists _, _|constructor].
Qed.
Lemma run_keeps es : forall st st', sound (fst st) -> run st es = Some st' -> sound (fst st') /\ length (fst st) <= length (fst st') /\
  forall n w, nth_error (fst st) n = Some (mkCell None (Some w)) -> nth_error (fst st') n = Some (mkCell None (Some w)).
Proof.
  induction es as [|e es IH]; intros st st' S E; cbn in E; [injection E as <-; split; [exact S|]; split; [lia|auto]|].
  destruct (step st e) as [[s1 o]|] eqn:T; [|discriminate]. apply step_keeps in T; [|exact S]. destruct T as (A & B & C).
  destruct (IH _ _ A E) as (A' & B' & C'). split; [exact A'|]. split; [lia|auto].
Qed.
Lemma get_there d h r i : sound h -> within h r -> i < length (r_slots r) -> exists h' v, font_at d h r i = Some (h', v).
Proof.
  intros S W L. destruct (nth_error (r_slots r) i) as [s|] eqn:Si; [|apply nth_error_None in Si; lia].
  unfold within in W. rewrite Forall_forall in W. specialize (W s (nth_error_In _ _ Si)).
  destruct (nth_error h (s_cell s)) as [c|] eqn:C; [|apply nth_error_None in C; lia].
  unfold sound in S. rewrite Forall_forall in S. destruct (S c (nth_error_In _ _ C)) as [(src & k & ->)|(w & ->)].
  - rewrite (font_at_pending d h r i s src k Si C). now eexists _, _.
  - rewrite (font_at_loaded d h r i s w Si) by (exists None; exact C). now eexists _, _.
Qed.
Lemma run_proper es : forall st, sound (fst st) -> proper (length (fst st)) es -> exists st', run st es = Some st'.
Proof.
  induction es as [|e es IH]; intros [h d] S P; cbn [run]; [now eexists|]. cbn [fst] in *. inversion P; subst; cbn [FontModel.step fst snd].
  - destruct (get_there d h r i S) as (h' & v & E); [assumption..|]. rewrite E. pose proof (font_at_sound _ _ _ _ _ _ S E) as (A & B & _).
    apply IH; cbn; [exact A|now rewrite B].
  - now apply IH.
  - apply IH; cbn.
    + apply Forall_app. split; [exact S|]. constructor; [left; now eexists _, _|constructor].
    + rewrite app_length. cbn. now rewrite Nat.add_1_r.
Qed.
End P.
