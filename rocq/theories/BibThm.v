(** Theorems about the bibliography. *)
From Coq Require Import List Arith NArith Bool Lia.
From Verif Require Import BibModel BibSpec BibProof.
Import ListNotations.

(** * C132: the entries of a YAML file *)

Theorem C132_entries : forall f s ds l,
  from_content f s (stream ds) = Some l <-> exists o, named_maps (parts ds) o /\ placed f s o l.
Proof.
  intros f s ds l. destruct (named_exists (parts ds)) as (o & Ho). destruct (load_stream ds o Ho) as (ld & El & Ef).
  unfold from_content. rewrite El, Ef. split.
  - intros H. injection H as <-. exists o. split; auto. apply placed_ok.
  - intros (o' & Ho' & Hp). assert (o' = o) by (eapply named_fun; eauto). subst o'. f_equal. eapply placed_fun; eauto. apply placed_ok.
Qed.
Print Assumptions C132_entries.

Theorem C132_plain : forall f s m e o l, biblio m o -> (from_content f s (stream [NMap m e]) = Some l <-> placed f s o l).
Proof.
  intros f s m e o l Hb. rewrite C132_entries. apply (biblio_named m o e) in Hb. split.
  - intros (o' & Ho & Hp). assert (o' = o) by (eapply named_fun; eauto). subst. auto.
  - eauto.
Qed.
Print Assumptions C132_plain.

(** A file that cannot be parsed to its end has the entries before. *)
Theorem C132_cut : forall f s ds es rest, stream ds = es ++ rest ->
  exists o1 o2 l, named_maps (parts ds) (o1 ++ o2) /\ placed f s o1 l /\ from_content f s es = Some l.
Proof.
  intros f s ds es rest E. destruct (named_exists (parts ds)) as (o & Ho). destruct (load_stream ds o Ho) as (ld & El & Ef).
  rewrite E in El. destruct (load_prefix es rest ld El) as (l1 & more & E1 & E2). rewrite Ef in E2.
  symmetry in E2. assert (X : exists o1 o2, o = o1 ++ o2 /\ found l1 = map mark o1).
  { clear -E2. revert E2. generalize (found l1). intros a. revert o. induction a as [|x a IH]; intros o E.
    - exists [], o. auto.
    - destruct o as [|y o]; [discriminate|]. cbn in E. injection E as -> E. destruct (IH o E) as (o1 & o2 & -> & ->). exists (y :: o1), o2. auto. }
  destruct X as (o1 & o2 & -> & E3). exists o1, o2. eexists. split; auto. split; [apply (placed_ok f s o1)|]. unfold from_content. rewrite E1, E3. auto.
Qed.
Print Assumptions C132_cut.

(** [ab:] at 0 with a mapping up to 9; [c: 1]; [é: ..] at 14 up to 20. *)
Definition doc1 : list (node * node) :=
  [(NScalar [97; 98]%N 0, NMap [(NScalar [120%N] 5, NScalar [49%N] 8)] 9); (NScalar [99%N] 9, NSeq [NScalar [49%N] 12; NScalar [50%N] 13]); (NScalar [233%N] 14, NMap [] 20)].
Definition text1 : text := repeat 97%N 14 ++ [233%N] ++ repeat 98%N 5.
Example C132_nonvacuous :
  biblio doc1 [([97; 98]%N, 0, 9); ([233%N], 14, 20)] /\
  from_content 3 text1 (stream [NMap doc1 20]) =
    Some [([97; 98]%N, {| file := 3; name_range := (0, 2); range := (0, 9); raw := None |});
          ([233%N], {| file := 3; name_range := (14, 16); range := (14, 21); raw := None |})].
Proof.
  split; [|vm_compute; auto]. apply biblio_entry. apply biblio_other; [repeat constructor|]. apply biblio_entry. constructor.
Qed.

(** A name whose value is a sequence of mappings is taken for an entry. *)
Theorem C132_seq_taken : exists f s k a l e r, In (k, r) (match from_content f s (stream [NMap [(NScalar k a, NSeq l)] e]) with Some x => x | None => [] end).
Proof.
  exists 0, (repeat 97%N 9), [97%N], 0, [NMap [] 4; NMap [] 8], 9. eexists. left. vm_compute. reflexivity.
Qed.
Print Assumptions C132_seq_taken.

(** * C133: several files *)

Theorem C133_last : forall ss k e, In (k, e) (bib_info ss) <-> stands k e (flat_map acts ss).
Proof. intros ss k e. rewrite info_acts. apply (perform_ok (flat_map acts ss)). Qed.
Print Assumptions C133_last.

Theorem C133_order : forall ss, first_keys (flat_map acts ss) (map fst (bib_info ss)) /\ NoDup (map fst (bib_info ss)).
Proof. intros ss. rewrite info_acts. destruct (perform_ok (flat_map acts ss)) as (H1 & H2 & _). auto. Qed.
Print Assumptions C133_order.

Lemma small_ok c d : small_of c d <-> d = lower c.
Proof. unfold small_of, lower. destruct (N.leb_spec 65 c), (N.leb_spec c 90); cbn; lia. Qed.
Lemma spelled_ok : forall e w, spelled e w <-> map lower e = w.
Proof.
  unfold spelled. induction e as [|c e IH]; intros w.
  - split; [inversion 1; auto|intros <-; constructor].
  - split.
    + inversion 1; subst. cbn. f_equal; [symmetry; apply small_ok; auto|apply IH; auto].
    + intros <-. cbn. constructor; [apply small_ok; auto|apply IH; auto].
Qed.
Lemma kind_ok e : kind_of (Some e) = Some Yaml /\ yaml_name e \/ kind_of (Some e) = Some Tex /\ tex_name e \/ kind_of (Some e) = None /\ ~ yaml_name e /\ ~ tex_name e.
Proof.
  unfold kind_of, yaml_name, tex_name. rewrite !spelled_ok. set (w := map lower e). cbv zeta.
  destruct (text_eqb w [121; 109; 108]%N) eqn:E1; [apply text_eqb_ok in E1; cbn; auto|].
  destruct (text_eqb w [121; 97; 109; 108]%N) eqn:E2; [apply text_eqb_ok in E2; cbn; auto|].
  destruct (text_eqb w [98; 105; 98]%N) eqn:E3; [apply text_eqb_ok in E3; cbn; auto|].
  apply text_eqb_no in E1, E2, E3. right. right. cbn. tauto.
Qed.
Lemma read_gives i s : read i = Some s -> gives i s.
Proof.
  unfold read, gives. destruct (ext i) as [e|] eqn:Ee.
  - destruct (kind_ok e) as [(-> & Hk)|[(-> & Hk)|(-> & Hk)]].
    + destruct (content i) as [c|] eqn:Ec.
      * destruct (from_content (id i) c (events i)) as [es|] eqn:Ef; [|discriminate]. intros H. injection H as <-. left. exists e, c, es. auto 10.
      * intros H. injection H as <-. right. right. auto.
    + destruct (content i) as [c|] eqn:Ec.
      * intros H. injection H as <-. right. left. exists e, c. cbn. split; auto. split; auto. split; auto. split; auto.
        destruct (tex i) as [l|]; cbn; auto. induction l as [|x l IH]; cbn; constructor; [cbn; auto|exact IH].
      * intros H. injection H as <-. right. right. auto.
    + destruct (content i); intros H; injection H as <-; right; right; cbn; split; auto; right; right; exists e; tauto.
  - cbn. destruct (content i); intros H; injection H as <-; right; right; cbn; auto.
Qed.

(** No panic, and what the files give is put together. *)
Theorem C133_total : forall is, (forall i, In i is -> exists ds rest, stream ds = events i ++ rest) ->
  exists ss, Forall2 gives is ss /\ info is = Some (bib_info ss).
Proof.
  intros is H. unfold info. assert (X : exists ss, reads is = Some ss /\ Forall2 gives is ss).
  { induction is as [|i is IH]; [exists []; split; [auto|constructor]|]. destruct IH as (ss & E & HF); [intros j Hj; apply H; right; auto|].
    assert (R : exists s, read i = Some s).
    { unfold read. destruct (kind_of (ext i)) as [[|]|]; [|destruct (content i); eauto|eauto]. destruct (content i) as [c|]; [|eauto].
      destruct (H i (or_introl eq_refl)) as (ds & rest & E'). destruct (C132_cut (id i) c ds (events i) rest E') as (o1 & o2 & l & _ & _ & Ef). rewrite Ef. eauto. }
    destruct R as (s & R). exists (s :: ss). cbn. rewrite R, E. split; auto. constructor; auto. apply read_gives. auto. }
  destruct X as (ss & E & HF). exists ss. rewrite E. auto.
Qed.
Print Assumptions C133_total.

(** Two files: in the second the key [b] is an alias. *)
Definition file1 : input :=
  {| id := 1; ext := Some [66; 73; 98]%N; content := Some []; events := []; tex := Some [([97%N], (1, 2), (0, 9)); ([98%N], (11, 12), (10, 19))];
     hayagriva := Some [([97%N], 11); ([98%N], 12)] |}.
Definition file2 : input :=
  {| id := 2; ext := Some [121; 109; 108]%N; content := Some (repeat 97%N 20);
     events := stream [NMap [(NScalar [97%N] 0, NMap [] 8); (NScalar [98%N] 8, NAlias)] 12]; tex := None; hayagriva := Some [([97%N], 21); ([98%N], 22)] |}.
Example C133_nonvacuous :
  info [file1; file2] = Some [([97%N], {| file := 2; name_range := (0, 1); range := (0, 8); raw := Some 21 |});
                              ([98%N], {| file := 1; name_range := (11, 12); range := (10, 19); raw := Some 22 |})].
Proof. vm_compute. auto. Qed.

(** The entry of hayagriva may be of another file than the place. *)
Theorem C133_raw_elsewhere : exists i1 i2 m k e r, info [i1; i2] = Some m /\ In (k, e) m /\ file e = id i1 /\ raw e = Some r /\ id i1 <> id i2 /\
  (exists l, hayagriva i2 = Some l /\ In (k, r) l) /\ (exists l, hayagriva i1 = Some l /\ ~ In (k, r) l).
Proof.
  exists file1, file2. eexists _, [98%N], _, 22. split; [vm_compute; reflexivity|]. split; [right; left; reflexivity|]. cbn.
  split; auto. split; auto. split; [discriminate|]. split.
  - eexists. split; [reflexivity|]. right. left. auto.
  - eexists. split; [reflexivity|]. intros [E|[E|[]]]; discriminate.
Qed.
Print Assumptions C133_raw_elsewhere.
