(** The theorems about packages: C94-C97. *)
From Coq Require Import List NArith Arith Bool Lia.
From Verif Require Import DigModel PageModel PathModel PathSpec PkgModel PkgSpec PkgProof.
Import ListNotations.
Open Scope nat_scope.

Definition ex_p : spec := mkSpec preview [120%N] (1, 2, 3)%N.
Definition ex_whole (p : spec) : list nat := [10; 11].
Definition ex_init : st := init (fun _ _ => None) (fun _ => true).

(** * C94: a package that is answered is whole *)
(** One preparation of a package at a time, not killed while unpacking. *)
Theorem C94_whole_partial : forall whole fs has es, (forall p l, fs Cache p = Some l -> covers l (whole p)) -> each (calm whole) (init fs has) es ->
  forall a, In a (s_answers (run (init fs has) es)) -> a_place a = Cache -> covers (a_files a) (whole (a_spec a)).
Proof. exact whole_answers. Qed.
Print Assumptions C94_whole_partial.
(** And stays so, unless something else removes it. *)
Theorem C94_stays_partial : forall whole fs has es, (forall p l, fs Cache p = Some l -> covers l (whole p)) -> each (calm whole) (init fs has) es -> Forall keeps es ->
  forall a, In a (s_answers (run (init fs has) es)) -> a_place a = Cache ->
  exists l, s_fs (run (init fs has) es) Cache (a_spec a) = Some l /\ covers l (whole (a_spec a)).
Proof. exact answered_stays. Qed.
Print Assumptions C94_stays_partial.
(** A download, a malformed archive of another package, and a second call. *)
Definition ex_q : spec := mkSpec preview [121%N] (0, 1, 0)%N.
Definition ex_calm : list event :=
  [Start ex_p; Go 0; Start ex_q; Go 1; Go 0; Go 1; Reply 1 (Archive [10] (Some true)); Reply 0 (Archive [10; 11] None); Go 1; Go 0; Go 1; Go 0; Go 0; Go 1; Go 0; Go 0; Start ex_p; Go 2; Go 2].
Example C94_nonvacuous : each (calm ex_whole) ex_init ex_calm /\ Forall keeps ex_calm /\
  s_answers (run ex_init ex_calm) = [mkA 0 ex_p Cache [10; 11]; mkA 2 ex_p Cache [10; 11]] /\ s_fs (run ex_init ex_calm) Cache ex_q = None /\
  map c_pc (s_calls (run ex_init ex_calm)) = [Over (Ok Cache); Over Failed; Over (Ok Cache)].
Proof.
  split; [|split; [repeat constructor|vm_compute; auto]].
  assert (FREE : forall s p, forallb (fun c => negb (spec_eqb (c_spec c) p) || match c_pc c with Over _ | Killed => true | _ => false end) (s_calls s) = true -> free s p).
  { intros s p H t c N E G. rewrite forallb_forall in H. pose proof (H c (nth_error_In _ _ N)) as X. rewrite E, spec_refl in X. unfold going in G. destruct (c_pc c); auto; discriminate. }
  unfold ex_calm. cbn [each]. repeat (refine (conj _ _); [match goal with
    | |- calm _ _ (Start _) => apply FREE; vm_compute; reflexivity
    | |- calm _ _ (Go _) => exact I
    | |- calm _ _ (Reply _ _) => split; [discriminate|intros B c N; try discriminate B; intros f H; exact H]
    end|]). exact I.
Qed.
(** Another call that looks while the archive is being unpacked is given what there is so far. *)
Theorem C94_seen_refuted : exists es a, In a (s_answers (run ex_init es)) /\ a_spec a = ex_p /\ a_place a = Cache /\ a_files a = [10] /\
  (forall t files bad, In (Reply t (Archive files bad)) es -> files = ex_whole ex_p /\ bad = None) /\ (forall t, ~ In (Kill t) es) /\ (forall d p x, ~ In (User d p x) es).
Proof.
  exists [Start ex_p; Go 0; Go 0; Reply 0 (Archive [10; 11] None); Go 0; Go 0; Start ex_p; Go 1; Go 1], (mkA 1 ex_p Cache [10]).
  split; [vm_compute; auto|]. repeat (split; [reflexivity|]). split; [|split].
  - intros t files bad H. repeat (destruct H as [H|H]; [try discriminate H; try (injection H as <- <- <-; auto)|]). destruct H.
  - intros t H. repeat (destruct H as [H|H]; [discriminate H|]). destruct H.
  - intros d p x H. repeat (destruct H as [H|H]; [discriminate H|]). destruct H.
Qed.
Print Assumptions C94_seen_refuted.
(** After a kill while unpacking, the rest is never fetched: whatever calls do, the directory does not change. *)
Theorem C94_killed_refuted : exists es, s_fs (run ex_init es) Cache ex_p = Some [10] /\ (forall t c, nth_error (s_calls (run ex_init es)) t = Some c -> ~ going c) /\
  (forall t files bad, In (Reply t (Archive files bad)) es -> files = ex_whole ex_p /\ bad = None) /\ (forall d p x, ~ In (User d p x) es) /\
  forall k, let s := run ex_init es in s_answers (run s [Start ex_p; Go 1; Go 1]) = [mkA 1 ex_p Cache [10]] /\
    s_fs (run s (Start ex_p :: repeat (Go 1) k)) Cache ex_p = Some [10] /\ s_reqs (run s (Start ex_p :: repeat (Go 1) k)) = s_reqs s.
Proof.
  exists [Start ex_p; Go 0; Go 0; Reply 0 (Archive [10; 11] None); Go 0; Go 0; Kill 0].
  split; [vm_compute; auto|]. split; [|split; [|split]].
  - intros [|[|t]] c; vm_compute; try discriminate; intros [= <-]; auto.
  - intros t files bad H. repeat (destruct H as [H|H]; [try discriminate H; try (injection H as <- <- <-; auto)|]). destruct H.
  - intros d p x H. repeat (destruct H as [H|H]; [discriminate H|]). destruct H.
  - intros k. cbn zeta. set (s := run ex_init _). split; [vm_compute; reflexivity|].
    assert (X : forall k s, nth_error (s_calls s) 1 = Some (mkCall ex_p (Over (Ok Cache))) -> run s (repeat (Go 1) k) = s).
    { induction k0 as [|k0 IH]; intros s0 N; [reflexivity|]. cbn [repeat run fold_left step]. assert (E : advance 1 s0 = s0) by (unfold advance; now rewrite N). rewrite E. now apply IH. }
    destruct k as [|[|k]]; [vm_compute; auto|vm_compute; auto|].
    change (run s (Start ex_p :: repeat (Go 1) (S (S k)))) with (run (run s [Start ex_p; Go 1; Go 1]) (repeat (Go 1) k)). rewrite X by (vm_compute; reflexivity). vm_compute. auto.
Qed.
Print Assumptions C94_killed_refuted.
(** A second download that fails removes what the first was answered. *)
Theorem C94_vanished_refuted : exists es, In (mkA 0 ex_p Cache (ex_whole ex_p)) (s_answers (run ex_init es)) /\ s_fs (run ex_init es) Cache ex_p = None /\
  (forall t, ~ In (Kill t) es) /\ (forall d p x, ~ In (User d p x) es).
Proof.
  exists [Start ex_p; Start ex_p; Go 0; Go 1; Go 0; Go 1; Reply 0 (Archive [10; 11] None); Go 0; Go 0; Go 0; Go 0; Go 0; Reply 1 (Archive [] (Some true)); Go 1; Go 1].
  split; [vm_compute; auto|]. split; [vm_compute; auto|]. split.
  - intros t H. repeat (destruct H as [H|H]; [discriminate H|]). destruct H.
  - intros d p x H. repeat (destruct H as [H|H]; [discriminate H|]). destruct H.
Qed.
Print Assumptions C94_vanished_refuted.
(** What is left of a malformed archive that could not be removed is answered from then on. *)
Theorem C94_left_refuted : exists es, s_answers (run ex_init es) = [mkA 1 ex_p Cache [10]] /\ map c_pc (s_calls (run ex_init es)) = [Over Failed; Over (Ok Cache)] /\
  (forall t, ~ In (Kill t) es) /\ (forall d p x, ~ In (User d p x) es).
Proof.
  exists [Start ex_p; Go 0; Go 0; Reply 0 (Archive [10] (Some false)); Go 0; Go 0; Go 0; Start ex_p; Go 1; Go 1].
  split; [vm_compute; auto|]. split; [vm_compute; auto|]. split.
  - intros t H. repeat (destruct H as [H|H]; [discriminate H|]). destruct H.
  - intros d p x H. repeat (destruct H as [H|H]; [discriminate H|]). destruct H.
Qed.
Print Assumptions C94_left_refuted.

(** * C95: where packages are looked for, and what is written *)
(** Below a root: the namespace, the name and the version. *)
Theorem C95_inside : forall base p, named p -> pkg_dir base p = base ++ [Nor (ns p); Nor (name p); Nor (print_ver (ver p))].
Proof. exact dir_comps. Qed.
Print Assumptions C95_inside.
Theorem C95_apart : forall base p q, named p -> named q -> pkg_dir base p = pkg_dir base q -> p = q.
Proof. exact dir_inj. Qed.
Print Assumptions C95_apart.
(** Only packages of the namespace preview are asked for, by a call for that package and once. *)
Theorem C95_requests : forall fs has es, let s := run (init fs has) es in
  (forall t p, In (t, p) (s_reqs s) -> ns p = preview /\ has Cache = true /\ option_map c_spec (nth_error (s_calls s) t) = Some p) /\ NoDup (map fst (s_reqs s)).
Proof. exact requests_ok. Qed.
Print Assumptions C95_requests.
(** Only the directory of a package that was asked for is written, and only in the cache. *)
Theorem C95_writes : forall fs has es e d q, let s := run (init fs has) es in s_fs (step s e) d q <> s_fs s d q ->
  (exists x, e = User d q x) \/ d = Cache /\ ns q = preview /\ exists t, e = Go t /\ In (t, q) (s_reqs s).
Proof. exact writes. Qed.
Print Assumptions C95_writes.
(** A package in the data directory is taken from there, without a request. *)
Theorem C95_data_first : forall fs has es p es', let s := run (init fs has) es in let t := length (s_calls s) in
  has Data = true -> always (fun s => s_fs s Data p <> None) (step s (Start p)) es' ->
  exists c, nth_error (s_calls (run s (Start p :: es'))) t = Some (mkCall p c) /\ (c = AtData \/ c = Over (Ok Data) \/ c = Killed) /\
    ~ In t (map fst (s_reqs (run s (Start p :: es')))).
Proof. exact data_first. Qed.
Print Assumptions C95_data_first.
(** A package in the cache is not asked for again. *)
Theorem C95_then_cache : forall fs has es p es', let s := run (init fs has) es in let t := length (s_calls s) in
  has Cache = true -> always (fun s => s_fs s Cache p <> None) (step s (Start p)) es' ->
  exists c, nth_error (s_calls (run s (Start p :: es'))) t = Some (mkCall p c) /\ (c = AtData \/ c = AtCache \/ (exists d, c = Over (Ok d)) \/ c = Killed) /\
    ~ In t (map fst (s_reqs (run s (Start p :: es')))).
Proof. exact then_cache. Qed.
Print Assumptions C95_then_cache.
(** Any other package is not found. *)
Theorem C95_nowhere : forall fs has es p es', let s := run (init fs has) es in let t := length (s_calls s) in
  (has Cache = false \/ ns p <> preview) -> always (fun s => s_fs s Data p = None /\ s_fs s Cache p = None) (step s (Start p)) es' ->
  exists c, nth_error (s_calls (run s (Start p :: es'))) t = Some (mkCall p c) /\ (c = AtData \/ c = AtCache \/ c = Over NotFound \/ c = Killed) /\
    ~ In t (map fst (s_reqs (run s (Start p :: es')))).
Proof. exact nowhere. Qed.
Print Assumptions C95_nowhere.
(** A package that is nowhere is downloaded: with an archive that is not malformed the call ends with exactly its files. *)
Theorem C95_download : forall s p files, s_has s Cache = true -> (if s_has s Data then s_fs s Data p else None) = None -> s_fs s Cache p = None -> ns p = preview ->
  let t := length (s_calls s) in
  let s' := run s ([Start p; Go t; Go t; Reply t (Archive files None); Go t] ++ repeat (Go t) (length files + 2)) in
  exists l, nth_error (s_calls s') t = Some (mkCall p (Over (Ok Cache))) /\ s_fs s' Cache p = Some l /\ (forall f, In f l <-> In f files) /\
    s_answers s' = s_answers s ++ [mkA t p Cache l] /\ s_reqs s' = s_reqs s ++ [(t, p)].
Proof. exact download. Qed.
Print Assumptions C95_download.
(** Names that the language does not allow, as a client may send them, lead out of the root. *)
Theorem C95_unchecked : exists p, ~ named p /\ forall base, pkg_dir base p = base ++ [ParC; ParC; Nor (print_ver (ver p))].
Proof.
  exists (mkSpec [46; 46]%N [46; 46]%N (1, 0, 0)%N). split.
  - intros ((_ & _ & H) & _). apply H. cbn. auto.
  - intros base. unfold pkg_dir. change (components _) with [ParC; ParC; Nor (print_ver (1, 0, 0)%N)]. unfold join. cbn [fold_left push]. now rewrite <- !app_assoc.
Qed.
Print Assumptions C95_unchecked.
Definition ex_l : spec := mkSpec [108%N] [120%N] (1, 2, 3)%N.
Definition ex_has : st := init (fun d p => if spec_eqb p ex_l then match d with Data => Some [1] | Cache => Some [2] end else if spec_eqb p ex_q then match d with Data => None | Cache => Some [3] end else None) (fun _ => true).
Example C95_nonvacuous : named ex_p /\ named ex_l /\ pkg_dir [RootC] ex_p <> pkg_dir [RootC] ex_q /\
  always (fun s => s_fs s Data ex_l <> None) (step ex_has (Start ex_l)) [Go 0] /\ s_answers (run ex_has [Start ex_l; Go 0]) = [mkA 0 ex_l Data [1]] /\
  s_answers (run ex_has [Start ex_q; Go 0; Go 0]) = [mkA 0 ex_q Cache [3]] /\
  s_reqs (run ex_has [Start ex_p; Go 0; Go 0]) = [(0, ex_p)] /\
  map c_pc (s_calls (run ex_init [Start ex_l; Go 0; Go 0])) = [Over NotFound] /\
  map c_pc (s_calls (run ex_init [Start ex_p; Go 0; Go 0; Reply 0 Missing])) = [Over NotFound] /\
  map c_pc (s_calls (run ex_init [Start ex_p; Go 0; Go 0; Reply 0 Broken])) = [Over Failed].
Proof.
  assert (X : forall n, n = preview \/ n = [120%N] \/ n = [108%N] -> ident n).
  { intros n H. repeat split.
    - destruct H as [->|[->| ->]]; discriminate.
    - destruct H as [->|[->| ->]]; cbn; intros Y; repeat (destruct Y as [Y|Y]; [discriminate|]); auto.
    - destruct H as [->|[->| ->]]; cbn; intros Y; repeat (destruct Y as [Y|Y]; [discriminate|]); auto. }
  split; [split; apply X; auto|]. split; [split; apply X; auto|]. split; [vm_compute; discriminate|].
  split; [vm_compute; repeat split; discriminate|]. vm_compute. repeat split.
Qed.

(** * C96: the packages that are listed *)
(** A package that is listed is there: where the listing says, unless the data directory has it too. *)
Theorem C96_listed_partial : forall space bd bc ld lc dir q, ident space -> (forall l, ld = Some l \/ lc = Some l -> all_printed l) ->
  In (dir, q) (list_packages space [(bd, ld); (bc, lc)]) -> ident (name q) ->
  ns q = space /\ (dir = pkg_dir bd q /\ local ld lc q = Some Data \/
                   dir = pkg_dir bc q /\ there lc q = true /\ (local ld lc q = Some Cache \/ there ld q = true /\ local ld lc q = Some Data)).
Proof. exact listed_local. Qed.
Print Assumptions C96_listed_partial.
(** Exactly the directories with a version as their name are listed, in packages and versions whose names do not start with a dot. *)
Theorem C96_exactly : forall space roots dir q, In (dir, q) (list_packages space roots) <->
  exists base l vs n, In (base, Some l) roots /\ In (name q, Some vs) l /\ In (n, true) vs /\ hidden (name q) = false /\ hidden n = false /\
    parse_ver n = Some (ver q) /\ ns q = space /\ dir = join base (components space) ++ [Nor (name q); Nor n].
Proof. exact listed_in. Qed.
Print Assumptions C96_exactly.
Theorem C96_all : forall space roots base l q vs, In (base, Some l) roots -> ns q = space -> In (name q, Some vs) l -> In (print_ver (ver q), true) vs ->
  hidden (name q) = false -> small (ver q) -> In (join base (components space) ++ [Nor (name q); Nor (print_ver (ver q))], q) (list_packages space roots).
Proof. exact listed_all. Qed.
Print Assumptions C96_all.
(** A directory named 01.0.0 is listed as version 1.0.0, which is not found. *)
Definition ex_odd : list chr := [48; 49; 46; 48; 46; 48]%N.
Theorem C96_listed_refuted : exists l dir q, In (dir, q) (list_packages [108%N] [([RootC], Some l); ([], None)]) /\ ident (name q) /\ local (Some l) None q = None.
Proof.
  exists [([120%N], Some [(ex_odd, true)])], [RootC; Nor [108%N]; Nor [120%N]; Nor ex_odd], (mkSpec [108%N] [120%N] (1, 0, 0)%N).
  split; [vm_compute; auto|]. split; [|reflexivity]. repeat split; [discriminate| |]; cbn; intros [H|H]; try discriminate; auto.
Qed.
Print Assumptions C96_listed_refuted.
(** A package in both directories is listed twice, although only the first is ever used. *)
Theorem C96_twice_refuted : exists l d1 d2 q, d1 <> d2 /\ list_packages [108%N] [([RootC], Some l); ([RootC; Nor [99%N]], Some l)] = [(d1, q); (d2, q)] /\ local (Some l) (Some l) q = Some Data.
Proof.
  exists [([120%N], Some [(print_ver (1, 0, 0)%N, true)])], (pkg_dir [RootC] (mkSpec [108%N] [120%N] (1, 0, 0)%N)), (pkg_dir [RootC; Nor [99%N]] (mkSpec [108%N] [120%N] (1, 0, 0)%N)), (mkSpec [108%N] [120%N] (1, 0, 0)%N).
  split; [vm_compute; discriminate|]. vm_compute. auto.
Qed.
Print Assumptions C96_twice_refuted.
Example C96_nonvacuous : let l := [([46; 103]%N, Some [(print_ver (1, 0, 0)%N, true)]); ([120%N], Some [(print_ver (1, 0, 0)%N, true); ([46; 120]%N, true); (print_ver (1, 0, 1)%N, false); ([118%N], true); (print_ver (0, 10, 0)%N, true)]); ([121%N], None)] in
  all_printed l /\ list_packages [108%N] [([RootC], Some l); ([CurC], None)] =
    [([RootC; Nor [108%N]; Nor [120%N]; Nor [49; 46; 48; 46; 48]%N], mkSpec [108%N] [120%N] (1, 0, 0)%N);
     ([RootC; Nor [108%N]; Nor [120%N]; Nor [48; 46; 49; 48; 46; 48]%N], mkSpec [108%N] [120%N] (0, 10, 0)%N)].
Proof.
  cbn zeta. split; [|vm_compute; reflexivity]. intros n vs H m b v K P. revert P.
  destruct H as [[= <- <-]|[[= <- <-]|[H|[]]]]; [| |discriminate H].
  - destruct K as [[= <- <-]|[]]. vm_compute; intros [= <-]; reflexivity.
  - destruct K as [[= <- <-]|[[= <- <-]|[[= <- <-]|[[= <- <-]|[[= <- <-]|[]]]]]]; vm_compute; try discriminate; intros [= <-]; reflexivity.
Qed.

(** * C97: the latest version *)
(** Of the namespace preview, the greatest in the index. *)
Theorem C97_index : forall fetch nm s, let '(s', r) := latest fetch preview nm s in
  let l := match i_index s with Some l => l | None => match fetch with Some l => l | None => [] end end in
  i_index s' = Some l /\ match r with
  | Some v => In (nm, v) l /\ forall w, In (nm, w) l -> ver_le w v
  | None => forall w, ~ In (nm, w) l
  end.
Proof. exact latest_preview. Qed.
Print Assumptions C97_index.
(** Of another namespace, the greatest in the data directory, where it is then found. *)
Theorem C97_local_partial : forall fetch space nm s, space <> preview -> (forall l, i_data s space = Some l -> all_printed l) ->
  let '(s', r) := latest fetch space nm s in s' = s /\ match r with
  | Some v => there (i_data s space) (mkSpec space nm v) = true /\ forall w, small w -> there (i_data s space) (mkSpec space nm w) = true -> ver_le w v
  | None => forall w, small w -> there (i_data s space) (mkSpec space nm w) = false
  end.
Proof. exact latest_local. Qed.
Print Assumptions C97_local_partial.
(** The index is fetched once. *)
Theorem C97_once : forall fetch fetch' s, let s' := fst (download_index fetch s) in snd (download_index fetch' s') = snd (download_index fetch s) /\ fst (download_index fetch' s') = s'.
Proof. exact index_kept. Qed.
Print Assumptions C97_once.
(** So if it fails once, no package is found from then on. *)
Theorem C97_failed_refuted : exists s nm v l, In (nm, v) l /\ snd (latest (Some l) preview nm s) = Some v /\
  forall fetch, snd (latest fetch preview nm (fst (latest None preview nm s))) = None.
Proof.
  exists (mkStore None (fun _ => None)), [120%N], (1, 0, 0)%N, [([120%N], (1, 0, 0)%N)]. split; [now left|]. split; [reflexivity|]. intros fetch. reflexivity.
Qed.
Print Assumptions C97_failed_refuted.
(** A name that is not printed that way gives a version that is not found. *)
Theorem C97_local_refuted : exists s space nm v, space <> preview /\ snd (latest None space nm s) = Some v /\ there (i_data s space) (mkSpec space nm v) = false.
Proof.
  exists (mkStore None (fun _ => Some [([120%N], Some [(ex_odd, true)])])), [108%N], [120%N], (1, 0, 0)%N. split; [discriminate|]. split; reflexivity.
Qed.
Print Assumptions C97_local_refuted.
Example C97_nonvacuous : let l := [([121%N], Some [(print_ver (9, 0, 0)%N, true)]); ([120%N], Some [(print_ver (1, 9, 0)%N, true); (print_ver (1, 10, 0)%N, true); ([118%N], true); (print_ver (1, 2, 30)%N, true)])] in
  let s := mkStore None (fun n => if text_eqb n [108%N] then Some l else None) in
  all_printed l /\ latest None [108%N] [120%N] s = (s, Some (1, 10, 0)%N) /\ snd (latest None [108%N] [122%N] s) = None /\
  snd (latest (Some [([120%N], (0, 3, 1)%N); ([121%N], (7, 0, 0)%N); ([120%N], (0, 3, 10)%N); ([120%N], (0, 2, 99)%N)]) preview [120%N] s) = Some (0, 3, 10)%N.
Proof.
  cbn zeta. split; [|vm_compute; auto]. intros n vs H m b v K P. revert P.
  destruct H as [[= <- <-]|[[= <- <-]|[]]].
  - destruct K as [[= <- <-]|[]]. vm_compute; intros [= <-]; reflexivity.
  - destruct K as [[= <- <-]|[[= <- <-]|[[= <- <-]|[[= <- <-]|[]]]]]; vm_compute; try discriminate; intros [= <-]; reflexivity.
Qed.
