From Coq Require Import List Arith Bool Lia.
From Verif Require Import FontModel FontSpec FontProof.
Import ListNotations.

(** C175: the options give the fonts of the user, then of the system, then the embedded ones; each is listed in the book at the index of the slot that
    loads it; searching does not panic, and leaves the fonts of others alone. *)
Theorem C175_resolve : forall faces count info_of cwd d o h, exists h' x, resolve_opts faces count info_of cwd d o h new_searcher = Some (h', x) /\
  (exists e, h' = h ++ e) /\
  r_paths (build x) = map (fun p => shown cwd (fst p)) (o_paths o) /\
  r_book (build x) = map (fun l => fst (fst l)) (expected faces count info_of d o) /\
  Forall2 (fun s l => loads h' s (snd (fst l)) (snd l)) (r_slots (build x)) (expected faces count info_of d o).
Proof.
  intros. destruct (resolve faces count info_of cwd d o h) as (h' & x & E & G & S & P & _). exists h', x. split; [exact E|]. split; [exact G|]. split; [exact P|].
  unfold build. cbn. clear - S. split; induction S as [|f l fs ls [A B] S IH]; cbn; [reflexivity|congruence|constructor|now constructor].
Qed.
Print Assumptions C175_resolve.
(** All fonts can then be listed, and each information with its slot. *)
Theorem C175_aligned : forall x, fonts (build x) = Some (x_fonts x) /\ length (r_book (build x)) = length (r_slots (build x)).
Proof.
  intros [fs ps db]. unfold fonts, build. cbn. split; [|now rewrite !map_length]. induction fs as [|[i s] fs IH]; cbn; [reflexivity|]. now rewrite IH.
Qed.
Print Assumptions C175_aligned.
(** Memory is added to a searcher with files only after a flush. *)
Theorem C175_dirty : forall count info_of data h x, add_memory_fonts count info_of data h x = None <-> x_db x <> [].
Proof.
  intros. unfold add_memory_fonts. destruct (x_db x) as [|f db]; [|split; congruence]. destruct (fold_left _ data _). split; congruence.
Qed.
Print Assumptions C175_dirty.
Theorem C175_flushed : forall info_of d h x, x_db (snd (flush info_of d h x)) = [].
Proof. intros. unfold flush. now destruct (fold_left _ _ _). Qed.
Print Assumptions C175_flushed.

(** A font is read when it is first asked for, and what it is then it remains: whatever happens to the files and to other fonts, through whichever resolver
    with the same slot, the same font is given, and nothing is read. *)
Theorem C175_first : forall valid d h r i s src k, nth_error (r_slots r) i = Some s -> loads h s src k ->
  exists h', font_at valid d h r i = Some (h', made valid (now d src) k).
Proof. intros valid d h r i s src k S [L _]. eexists. exact (font_at_pending valid d h r i s src k S L). Qed.
Print Assumptions C175_first.
Theorem C175_once : forall valid h d r i st v es st' r' i' s s', sound h -> step valid (h, d) (Get r i) = Some (st, Some v) -> run valid st es = Some st' ->
  nth_error (r_slots r) i = Some s -> nth_error (r_slots r') i' = Some s' -> s_cell s = s_cell s' ->
  step valid st' (Get r' i') = Some (st', Some v).
Proof.
  intros valid h d r i st v es st' r' i' s s' S E R I I' Q. cbn in E. destruct (font_at valid d h r i) as [[h1 w]|] eqn:F; [|discriminate]. injection E as <- ->.
  pose proof (font_at_sound _ _ _ _ _ _ _ S F) as (A & _ & (t & T & C) & _). rewrite I in T. injection T as <-.
  apply run_keeps in R; [|exact A]. destruct R as (_ & _ & K). apply K in C. cbn. rewrite (font_at_loaded valid (snd st') (fst st') r' i' s' v I'); [now destruct st'|].
  exists None. now rewrite <- Q.
Qed.
Print Assumptions C175_once.
(** Slots that are made, and used, stay sound: no load takes what another has taken. *)
Theorem C175_sound : forall valid h d es st, sound h -> run valid (h, d) es = Some st -> sound (fst st).
Proof. intros valid h d es st S R. now apply run_keeps in R. Qed.
Print Assumptions C175_sound.
Theorem C175_calm : forall valid h d es, sound h -> proper (length h) es -> exists st, run valid (h, d) es = Some st.
Proof. intros valid h d es S P. now apply run_proper. Qed.
Print Assumptions C175_calm.
(** An index that is not in the book has no slot, and asking for its font panics. *)
Theorem C175_index : forall valid d h r i, sound h -> within h r ->
  (slot_at r i = None <-> length (r_slots r) <= i) /\ (font_at valid d h r i = None <-> length (r_slots r) <= i).
Proof.
  intros valid d h r i S W. split; [apply nth_error_None|]. split.
  - intros N. destruct (le_lt_dec (length (r_slots r)) i) as [L|L]; [exact L|]. destruct (get_there valid d h r i S W L) as (h' & v & E). congruence.
  - intros L. unfold font_at. apply nth_error_None in L. now rewrite L.
Qed.
Print Assumptions C175_index.

(** The loaded fonts are those that were asked for with success, at their indices and in order. *)
Theorem C175_loaded : forall h r n f, In (n, f) (loaded_fonts h r) <->
  exists s c, nth_error (r_slots r) n = Some s /\ nth_error h (s_cell s) = Some c /\ c_value c = Some (Some f).
Proof.
  intros h r n f. unfold loaded_fonts.
  assert (P : forall s, peek h s = Some f <-> exists c, nth_error h (s_cell s) = Some c /\ c_value c = Some (Some f)).
  { intros s. unfold peek. destruct (nth_error h (s_cell s)) as [c|]; [|split; [discriminate|now intros (c & ? & _)]]. split.
    - intros E. exists c. split; [reflexivity|]. destruct (c_value c); congruence.
    - intros (c' & [= <-] & ->). reflexivity. }
  enough (G : forall l k, In (n, f) (loaded_from h k l) <-> k <= n /\ exists s, nth_error l (n - k) = Some s /\ peek h s = Some f).
  { rewrite G, Nat.sub_0_r. split.
    - intros (_ & s & E & K). apply P in K. destruct K as (c & A & B). now exists s, c.
    - intros (s & c & E & A & B). split; [lia|]. exists s. split; [exact E|]. apply P. now exists c. }
  induction l as [|s l IH]; intros k; cbn [loaded_from].
  - split; [intros []|]. intros (_ & s & E & _). now destruct (n - k).
  - rewrite in_app_iff, IH. split.
    + intros [H|(L & t & E & K)].
      * destruct (peek h s) as [g|] eqn:K; [|destruct H]. destruct H as [[= -> ->]|[]]. split; [lia|]. exists s. now rewrite Nat.sub_diag.
      * split; [lia|]. exists t. split; [|exact K]. now replace (n - k) with (S (n - S k)) by lia.
    + intros (L & t & E & K). destruct (Nat.eq_dec k n) as [->|N].
      * left. rewrite Nat.sub_diag in E. injection E as ->. rewrite K. now left.
      * right. split; [lia|]. exists t. split; [|exact K]. replace (n - k) with (S (n - S k)) in E by lia. exact E.
Qed.
Print Assumptions C175_loaded.
(** A font is described as the first of the loaded ones that equal it. *)
Theorem C175_describe : forall h r f,
  (exists n s, nth_error (r_slots r) n = Some s /\ In (n, f) (loaded_fonts h r) /\ (forall m, In (m, f) (loaded_fonts h r) -> n <= m) /\ describe_font h r f = s_desc s) \/
  ((forall n, ~ In (n, f) (loaded_fonts h r)) /\ describe_font h r f = None).
Proof.
  intros h r f. unfold describe_font.
  assert (Q : forall s, (match peek h s with Some g => same_font g f | None => false end = true) <-> exists c, nth_error h (s_cell s) = Some c /\ c_value c = Some (Some f)).
  { intros s. unfold peek. destruct (nth_error h (s_cell s)) as [c|]; [|split; [discriminate|now intros (c & ? & _)]]. split.
    - intros E. exists c. split; [reflexivity|]. destruct (c_value c) as [[g|]|]; try discriminate. unfold same_font in E. apply andb_true_iff in E.
      rewrite !Nat.eqb_eq in E. destruct E, g, f. cbn in *. now subst.
    - intros (c' & [= <-] & ->). unfold same_font. now rewrite !Nat.eqb_refl. }
  set (p := fun s => match peek h s with Some g => same_font g f | None => false end) in *.
  assert (F : (exists n s, nth_error (r_slots r) n = Some s /\ p s = true /\ (forall m t, nth_error (r_slots r) m = Some t -> p t = true -> n <= m) /\ find p (r_slots r) = Some s) \/
    ((forall s, In s (r_slots r) -> p s = false) /\ find p (r_slots r) = None)).
  { induction (r_slots r) as [|s l IH]; [right; now split; [intros s []|]|]. cbn [find]. destruct (p s) eqn:E.
    - left. exists 0, s. repeat split; [exact E|lia].
    - destruct IH as [(n & t & A & B & C & D)|[A B]].
      + left. exists (S n), t. split; [exact A|]. split; [exact B|]. split; [|exact D]. intros [|m] u M U; cbn in M; [congruence|]. specialize (C _ _ M U). lia.
      + right. split; [|exact B]. intros t [<-|I]; auto. }
  destruct F as [(n & s & A & B & C & ->)|[A ->]].
  - left. exists n, s. split; [exact A|]. split; [apply C175_loaded; apply Q in B; destruct B as (c & B); now exists s, c|]. split; [|reflexivity].
    intros m M. apply C175_loaded in M. destruct M as (t & c & M1 & M2). apply (C m t M1). apply Q. now exists c.
  - right. split; [|reflexivity]. intros n N. apply C175_loaded in N. destruct N as (s & c & N1 & N2). specialize (A s (nth_error_In _ _ N1)).
    assert (p s = true) by (apply Q; now exists c). congruence.
Qed.
Print Assumptions C175_describe.

(** A substitute is a font that covers the first code point of the wanted one; without one there is a panic. *)
Lemma covering_spec c book : forall n m, In m (covering n c book) <-> n <= m /\ exists i, nth_error book (m - n) = Some i /\ In c (i_coverage i).
Proof.
  induction book as [|x book IH]; intros n m; cbn [covering].
  - split; [intros []|]. intros (_ & i & E & _). now destruct (m - n).
  - rewrite in_app_iff, IH. assert (X : existsb (Nat.eqb c) (i_coverage x) = true <-> In c (i_coverage x)).
    { rewrite existsb_exists. split; [intros (y & I & E); apply Nat.eqb_eq in E; now subst|]. intros I. exists c. split; [exact I|apply Nat.eqb_refl]. }
    split.
    + intros [H|(L & i & E & I)].
      * destruct (existsb _ _); [|destruct H]. destruct H as [<-|[]]. split; [lia|]. exists x. rewrite Nat.sub_diag. split; [reflexivity|now apply X].
      * split; [lia|]. exists i. split; [|exact I]. now replace (m - n) with (S (m - S n)) by lia.
    + intros (L & i & E & I). destruct (Nat.eq_dec n m) as [->|N].
      * left. rewrite Nat.sub_diag in E. injection E as ->. rewrite (proj2 X I). now left.
      * right. split; [lia|]. exists i. split; [|exact I]. replace (m - n) with (S (m - S n)) in E by lia. exact E.
Qed.
Theorem C175_substitute : forall valid pick scalar d h r w h' v, get_by_info valid pick scalar d h r w = Some (h', v) ->
  exists c n i, c = hd 99 (i_coverage w) /\ nth_error (r_book r) n = Some i /\ In c (i_coverage i) /\ font_at valid d h r n = Some (h', v).
Proof.
  intros valid pick scalar d h r w h' v E. unfold get_by_info in E. destruct (alternative scalar w) as [c|] eqn:A; [|discriminate].
  destruct (covering 0 c (r_book r)) as [|a l] eqn:C; [discriminate|]. remember (a :: l) as all. set (n := nth (pick w all mod length all) all 0) in *.
  assert (I : In n all) by (apply nth_In, Nat.mod_upper_bound; subst all; discriminate).
  rewrite <- C in I. apply covering_spec in I. destruct I as (_ & i & N & I). rewrite Nat.sub_0_r in N. exists c, n, i. split.
  - unfold alternative in A. destruct (i_coverage w) as [|x cov]; cbn; [congruence|]. destruct (scalar x); congruence.
  - now subst all.
Qed.
Print Assumptions C175_substitute.
Theorem C175_no_substitute : forall valid pick scalar d h r w, sound h -> within h r -> length (r_book r) = length (r_slots r) ->
  (get_by_info valid pick scalar d h r w = None <->
   (exists c cov, i_coverage w = c :: cov /\ scalar c = false) \/ forall i, In i (r_book r) -> ~ In (hd 99 (i_coverage w)) (i_coverage i)).
Proof.
  intros valid pick scalar d h r w S W L. unfold get_by_info.
  assert (A : (alternative scalar w = None /\ exists c cov, i_coverage w = c :: cov /\ scalar c = false) \/
    (alternative scalar w = Some (hd 99 (i_coverage w)) /\ ~ exists c cov, i_coverage w = c :: cov /\ scalar c = false)).
  { unfold alternative. destruct (i_coverage w) as [|c cov]; [right; split; [reflexivity|now intros (c & cov & ? & _)]|]. cbn. destruct (scalar c) eqn:E.
    - right. split; [reflexivity|]. intros (c' & cov' & [= <- <-] & X). congruence.
    - left. split; [reflexivity|]. now exists c, cov. }
  destruct A as [[-> A]|[-> A]]; [now split; [left|]|]. set (c := hd 99 (i_coverage w)) in *.
  destruct (covering 0 c (r_book r)) as [|a l] eqn:C.
  - split; [|reflexivity]. intros _. right. intros i I B. apply In_nth_error in I. destruct I as (n & I).
    assert (X : In n (covering 0 c (r_book r))) by (apply covering_spec; split; [lia|]; exists i; now rewrite Nat.sub_0_r). rewrite C in X. destruct X.
  - remember (a :: l) as all. set (n := nth (pick w all mod length all) all 0) in *.
    assert (I : In n all) by (apply nth_In, Nat.mod_upper_bound; subst all; discriminate).
    rewrite <- C in I. apply covering_spec in I. destruct I as (_ & i & N & I). rewrite Nat.sub_0_r in N.
    assert (B : n < length (r_slots r)) by (rewrite <- L; apply nth_error_Some; congruence).
    destruct (get_there valid d h r n S W B) as (h' & v & E). subst all. rewrite E. split; [discriminate|].
    intros [X|X]; [now apply A in X|]. now apply X in I; [|apply nth_error_In with n].
Qed.
Print Assumptions C175_no_substitute.

(** A file with two fonts of the user, one of the system, and an embedded one. *)
Definition faces0 (b : bytes) : list nat := seq 0 b.
Definition info0 (b i : nat) : option info := if b =? 7 then None else Some (mkInfo (10 * b + i) [65; 66]).
Definition disk0 : disk := fun p => match p with Rel [1] => Some 2 | Abs [2] => Some 1 | Abs [3] => Some 7 | _ => None end.
Definition opts0 : opts := mkOpts [(Rel [1], None); (Abs [9], Some [Abs [3]; Abs [4]])] (Some [Abs [2]]) [1].
Example C175_nonvacuous : exists h x, resolve_opts faces0 (fun _ => 1) info0 (Some [5]) disk0 opts0 [] new_searcher = Some (h, x) /\
  r_paths (build x) = [Abs [5; 1]; Abs [9]] /\ map i_name (r_book (build x)) = [20; 21; 10; 10] /\ sound h /\ within h (build x) /\
  exists h1 h2, font_at (fun _ _ => true) disk0 h (build x) 1 = Some (h1, Some (mkFont 2 1)) /\
    font_at (fun _ _ => true) (fun _ => None) h1 (build x) 1 = Some (h1, Some (mkFont 2 1)) /\
    font_at (fun _ _ => true) (fun _ => None) h1 (build x) 0 = Some (h2, None) /\ describe_font h2 (build x) (mkFont 2 1) = Some (Fs (Rel [1])).
Proof.
  eexists _, _. split; [reflexivity|]. split; [reflexivity|]. split; [reflexivity|]. split; [repeat (constructor; [left; now eexists _, _|]); constructor|].
  split; [repeat constructor|]. eexists _, _. repeat split.
Qed.
(** What is known of a font is of when it was found: the file may have changed when the font is loaded. *)
Theorem C175_stale : exists faces count info_of d d' o h x i h' f, resolve_opts faces count info_of None d o [] new_searcher = Some (h, x) /\
  font_at (fun _ _ => true) d' h (build x) i = Some (h', Some f) /\ option_map i_name (info_of (f_data f) (f_index f)) <> option_map i_name (nth_error (r_book (build x)) i).
Proof.
  exists faces0, (fun _ => 1), info0, disk0, (fun _ => Some 4), (mkOpts [(Rel [1], None)] None []). eexists _, _. exists 0. eexists _, _.
  split; [reflexivity|]. split; [reflexivity|]. vm_compute. discriminate.
Qed.
Print Assumptions C175_stale.
