(** Proofs about the script (C162). *)
From Coq Require Import String Ascii.
From Coq Require Import List Arith NArith ZArith Bool Lia.
From Verif Require Import DigModel DigProof PageModel PageSpec PageProof PathModel PathSpec PathProof ScrModel ScrSpec.
Import ListNotations.
Local Open Scope N_scope.

(** * Words *)
Definition base (w : option text) : text := match w with Some w => w | None => [] end.
Lemma sh_single s : passable s -> forall w ws r,
  sh Single (Some w) ws (quote_escape s ++ 39 :: r) = sh Plain (Some (w ++ s)) ws r.
Proof.
  induction s as [|c s IH]; intros P w ws r.
  - cbn. now rewrite app_nil_r.
  - assert (P' : passable s) by (intros H; apply P; now right).
    assert (C : c <> 0) by (intros ->; apply P; now left).
    change (quote_escape (c :: s)) with ((if c =? 39 then [39; 34; 39; 34; 39] else [c]) ++ quote_escape s). destruct (c =? 39) eqn:E.
    + apply N.eqb_eq in E. subst c.
      change (sh Single (Some w) ws (([39; 34; 39; 34; 39] ++ quote_escape s) ++ 39 :: r)) with (sh Single (Some (w ++ [39])) ws (quote_escape s ++ 39 :: r)).
      rewrite IH by assumption. now rewrite <- app_assoc.
    + change (([c] ++ quote_escape s) ++ 39 :: r) with (c :: quote_escape s ++ 39 :: r). cbn [sh]. rewrite E.
      destruct (c =? 0) eqn:Z; [apply N.eqb_eq in Z; congruence|]. change (add (Some w) c) with (Some (w ++ [c])).
      rewrite IH by assumption. now rewrite <- app_assoc.
Qed.
Lemma sh_quote s : passable s -> forall w ws r, sh Plain w ws (quote s ++ r) = sh Plain (Some (base w ++ s)) ws r.
Proof.
  intros P w ws r. unfold quote. rewrite <- !app_assoc.
  change (sh Plain w ws ([39] ++ quote_escape s ++ [39] ++ r)) with (sh Single (Some (base w)) ws (quote_escape s ++ 39 :: r)).
  now rewrite sh_single.
Qed.
(** Characters that may follow the first in a word of a command that has its name. *)
Definition mild (c : chr) : bool := ordinary c || (c =? 61).
Lemma sh_mild s : Forall (fun c => mild c = true) s -> forall w ws r, ws <> [] ->
  sh Plain w ws (s ++ r) = sh Plain (match s with [] => w | _ => Some (base w ++ s) end) ws r.
Proof.
  induction 1 as [|c s C _ IH]; intros w ws r W; [reflexivity|].
  assert (S : sh Plain w ws ((c :: s) ++ r) = sh Plain (add w c) ws (s ++ r)).
  { cbn [app sh]. unfold mild in C.
    destruct (c =? 10) eqn:E1; [apply N.eqb_eq in E1; subst; discriminate C|].
    destruct (c =? 32) eqn:E2; [apply N.eqb_eq in E2; subst; discriminate C|].
    destruct (c =? 9) eqn:E3; [apply N.eqb_eq in E3; subst; discriminate C|]. cbn [orb].
    destruct (c =? 39) eqn:E4; [apply N.eqb_eq in E4; subst; discriminate C|].
    destruct (c =? 34) eqn:E5; [apply N.eqb_eq in E5; subst; discriminate C|].
    destruct (c =? 35) eqn:E6; [apply N.eqb_eq in E6; subst; discriminate C|].
    destruct (c =? 61) eqn:E7; [destruct ws; [congruence|reflexivity]|].
    rewrite orb_false_r in C. now rewrite C. }
  rewrite S, IH by assumption. destruct s, w; cbn [add base app]; try reflexivity; now rewrite <- app_assoc.
Qed.
(** A piece of the script that is read as a word, or as none. *)
Definition reads (t : text) (w : list text) : Prop :=
  (exists x, w = [x] /\ forall ws r, ws <> [] -> sh Plain None ws (t ++ r) = sh Plain (Some x) ws r) \/ (w = [] /\ t = []).
Lemma reads_quote s : passable s -> reads (quote s) [s].
Proof. intros P. left. exists s. split; [reflexivity|]. intros ws r _. now rewrite sh_quote. Qed.
Lemma reads_mild s : s <> [] -> forallb mild s = true -> reads s [s].
Proof.
  intros N M. left. exists s. split; [reflexivity|]. intros ws r W. rewrite sh_mild; [|now apply Forall_forall, forallb_forall|assumption].
  destruct s; [congruence|reflexivity].
Qed.
Ltac mild_word := apply reads_mild; [discriminate|reflexivity].
Lemma reads_path cwd r : path_passable cwd r -> reads (path_of cwd r) (path_word cwd r).
Proof.
  unfold path_of, path_word. destruct (text_eqb (fst r) (lit "file")); intros P; [now apply reads_quote|now right].
Qed.
Definition all_reads (ts : list text) (ws : list text) : Prop :=
  exists ps, Forall2 reads ts ps /\ ws = concat ps.
Lemma ar_nil : all_reads [] [].
Proof. exists []. split; [constructor|reflexivity]. Qed.
Lemma ar_app a b x y : all_reads a x -> all_reads b y -> all_reads (a ++ b) (x ++ y).
Proof. intros (p & P & ->) (q & Q & ->). exists (p ++ q). split; [now apply Forall2_app|now rewrite concat_app]. Qed.
Lemma ar_one t w : reads t w -> all_reads [t] w.
Proof. intros R. exists [w]. split; [constructor; [assumption|constructor]|cbn; now rewrite app_nil_r]. Qed.
Lemma ar_cons t w a x : reads t w -> all_reads a x -> all_reads (t :: a) (w ++ x).
Proof. intros R A. apply (ar_app [t]); [now apply ar_one|assumption]. Qed.
Lemma ar_flat {A} (f g : A -> list text) l : (forall x, In x l -> all_reads (f x) (g x)) -> all_reads (flat_map f l) (flat_map g l).
Proof.
  induction l as [|x l IH]; intros H; [apply ar_nil|]. cbn [flat_map]. apply ar_app; [apply H; now left|apply IH; intros; apply H; now right].
Qed.
Lemma ar_map {A} (f g : A -> text) l : (forall x, In x l -> reads (f x) [g x]) -> all_reads (map f l) (map g l).
Proof.
  induction l as [|x l IH]; intros H; [apply ar_nil|]. cbn [map].
  apply (ar_cons (f x) [g x]); [apply H; now left|apply IH; intros; apply H; now right].
Qed.
Lemma close_none ws : close None ws = ws.
Proof. reflexivity. Qed.
Lemma sh_build ts : forall ps ws r, Forall2 reads ts ps -> ws <> [] ->
  sh Plain None ws (build ts ++ 10 :: r) = option_map (cons (ws ++ concat ps)) (sh Plain None [] r).
Proof.
  assert (D : forall w ws r, close w ws <> [] -> sh Plain w ws (10 :: r) = option_map (cons (close w ws)) (sh Plain None [] r)).
  { intros w ws r N. cbn [sh N.eqb Pos.eqb]. unfold done. destruct (close w ws); [congruence|reflexivity]. }
  induction ts as [|t ts IH]; intros ps ws r F W.
  - inversion F; subst. cbn [build app concat]. rewrite app_nil_r. now apply (D None).
  - inversion F as [|? p ? ps' R F']; subst. destruct ts as [|u ts].
    + inversion F'; subst. cbn [build concat]. rewrite app_nil_r. destruct R as [(x & -> & R)|(-> & ->)].
      * rewrite R by assumption. apply D. cbn. now destruct ws.
      * cbn [app]. rewrite app_nil_r. now apply (D None).
    + change (build (t :: u :: ts)) with (t ++ [32] ++ build (u :: ts)). rewrite <- !app_assoc. cbn [concat].
      destruct R as [(x & -> & R)|(-> & ->)].
      * rewrite R by assumption. cbn [app]. change (sh Plain (Some x) ws (32 :: build (u :: ts) ++ 10 :: r)) with (sh Plain None (ws ++ [x]) (build (u :: ts) ++ 10 :: r)).
        rewrite (IH ps' _ _ F') by (now destruct ws). now rewrite <- app_assoc.
      * cbn [app]. change (sh Plain None ws (32 :: build (u :: ts) ++ 10 :: r)) with (sh Plain None ws (build (u :: ts) ++ 10 :: r)).
        now rewrite (IH ps' _ _ F').
Qed.
Lemma sh_comment s : on_line s -> forall ws r, sh Comment None ws (s ++ r) = sh Comment None ws r.
Proof.
  induction s as [|c s IH]; intros P ws r; [reflexivity|]. cbn [app sh].
  destruct (c =? 10) eqn:E; [apply N.eqb_eq in E; subst; exfalso; apply P; now left|].
  apply IH. intros H. apply P. now right.
Qed.

(** * The words of a command *)
Lemma digit_mild c : 48 <= c <= 57 -> mild c = true.
Proof.
  intros C. unfold mild, ordinary. replace (48 <=? c) with true by (symmetry; now apply N.leb_le).
  replace (c <=? 57) with true by (symmetry; now apply N.leb_le). reflexivity.
Qed.
Lemma num_mild n : forallb mild (print_num 10 n) = true.
Proof.
  apply forallb_forall. intros c I. apply digit_mild. pose proof (dec_range n) as F. rewrite Forall_forall in F. auto.
Qed.
Lemma int_mild z : print_int z <> [] /\ forallb mild (print_int z) = true.
Proof.
  destruct z as [|p|p].
  - split; [apply print_nonempty|apply (num_mild 0)].
  - split; [apply print_nonempty|apply num_mild].
  - split; [discriminate|]. change (forallb mild (45 :: print_num 10 (N.pos p)) = true). cbn [forallb]. now rewrite num_mild.
Qed.
Lemma pages_mild p : print_pages p <> [] /\ forallb mild (print_pages p) = true.
Proof.
  unfold print_pages. split; [destruct (print_end (fst p)); discriminate|].
  rewrite !forallb_app. destruct p as [[a|] [b|]]; cbn [fst snd print_end]; rewrite ?num_mild; reflexivity.
Qed.
Lemma reads_json s : reads (json (standard_name s)) [standard_name s].
Proof.
  left. exists (standard_name s). split; [reflexivity|]. intros ws r W. unfold json. rewrite <- !app_assoc.
  destruct s; reflexivity.
Qed.
Lemma reads_input k v : passable k -> passable v ->
  reads (lit "--input='" ++ quote_escape k ++ [61] ++ quote_escape v ++ [39]) [lit "--input=" ++ k ++ [61] ++ v].
Proof.
  intros K V. left. eexists. split; [reflexivity|]. intros ws r W.
  assert (E : quote_escape k ++ [61] ++ quote_escape v = quote_escape (k ++ [61] ++ v)) by (unfold quote_escape; now rewrite !flat_map_app).
  replace ((lit "--input='" ++ quote_escape k ++ [61] ++ quote_escape v ++ [39]) ++ r)
    with (lit "--input=" ++ quote (k ++ [61] ++ v) ++ r).
  2:{ unfold quote. rewrite <- E. change (lit "--input='") with (lit "--input=" ++ [39]). now rewrite <- !app_assoc. }
  rewrite sh_mild; [|now apply Forall_forall, forallb_forall|assumption].
  change (sh Plain (Some (base None ++ lit "--input=")) ws (quote (k ++ [61] ++ v) ++ r) = sh Plain (Some (lit "--input=" ++ k ++ [61] ++ v)) ws r).
  rewrite sh_quote; [reflexivity|]. intros H. rewrite !in_app_iff in H. destruct H as [H|[[H|[]]|H]]; [now apply K|discriminate|now apply V].
Qed.
Lemma ar_word (name : string) t w : reads (lit name) [lit name] -> reads t w -> all_reads [lit name; t] (lit name :: w).
Proof. intros A B. exact (ar_cons _ [lit name] [t] w A (ar_one _ _ B)). Qed.
Lemma ar_opt cwd name o : reads (lit name) [lit name] -> (forall r, o = Some r -> path_passable cwd r) ->
  all_reads (opt_path cwd name o) (option_words (named cwd name) o).
Proof.
  intros N P. destruct o as [r|]; [|apply ar_nil]. cbn. unfold path_option, named. apply ar_word; [assumption|apply reads_path; auto].
Qed.
Lemma ar_changes cs : all_reads (flat_map change_words cs) (flat_map wanted_change cs).
Proof.
  apply ar_flat. intros [rs| | |] _; cbn [change_words wanted_change]; try apply ar_nil.
  - apply ar_flat. intros p _. apply ar_word; [mild_word|]. now apply reads_mild; apply pages_mild.
  - apply ar_one. mild_word.
Qed.
Lemma ar_format j : all_reads (format_words j) (wanted_format j).
Proof.
  destruct j as [| e ss ts| | | | | | |]; cbn [format_words wanted_format]; try apply ar_nil; try (apply ar_one; mild_word).
  apply (ar_app [lit "--format=pdf"] _ [lit "--format=pdf"]); [apply ar_one; mild_word|]. apply ar_app.
  - apply ar_flat. intros s _. apply ar_word; [mild_word|apply reads_json].
  - destruct ts as [z|]; [|apply ar_nil]. apply ar_word; [mild_word|]. now apply reads_mild; apply int_mild.
Qed.
Definition rest_words (cwd : path) (d : input) (t : task) (e : export) : list text :=
  skipn 1 (command cwd d t e).
Lemma ar_rest cwd d t e : input_ok cwd d -> export_ok e -> passable (t_id t) ->
  all_reads (rest_words cwd d t e) (skipn 1 (wanted cwd d t e)).
Proof.
  intros (M & R & I) E T. unfold rest_words, command, wanted. cbn [skipn app].
  apply (ar_cons _ [lit "compile"]); [mild_word|]. apply (ar_cons _ [lit "--save-lock"]); [mild_word|].
  apply (ar_cons _ [lit "--task"]); [mild_word|]. apply (ar_cons _ [t_id t]); [now apply reads_quote|].
  apply ar_cons; [now apply reads_path|]. apply ar_app; [apply ar_opt; [mild_word|intros; apply R; auto]|].
  apply ar_app. { apply ar_map. intros (k, v) H. apply I in H. now apply reads_input. }
  apply ar_app. { apply ar_flat. intros r H. apply ar_word; [mild_word|apply reads_path, R; auto]. }
  apply ar_app. { destruct (i_system d); [apply ar_nil|apply ar_one; mild_word]. }
  apply ar_app; [apply ar_opt; [mild_word|intros; apply R; auto]|].
  apply ar_app; [apply ar_opt; [mild_word|intros; apply R; auto]|].
  apply ar_app. { destruct (e_output e) as [p|] eqn:O; [|apply ar_nil]. apply ar_word; [mild_word|apply reads_quote, E; assumption]. }
  apply ar_app; [apply ar_changes|apply ar_format].
Qed.
Lemma exports_iff j e : as_export j = Some e <-> exports j e.
Proof. split; [destruct j; cbn; intros H; try discriminate; injection H as <-; constructor|intros []; reflexivity]. Qed.
Lemma wanted_task_eq cwd l t : wanted_task cwd l t = match get_document l (t_doc t), as_export (t_job t) with Some d, Some e => [wanted cwd d t e] | _, _ => [] end.
Proof. unfold wanted_task. destruct (get_document l (t_doc t)); [|reflexivity]. destruct (t_job t); reflexivity. Qed.
Lemma sh_task cwd l t r : task_ok cwd l t ->
  sh Plain None [] (task_lines cwd l t ++ r) = match sh Plain None [] r with Some cs => Some (wanted_task cwd l t ++ cs) | None => None end.
Proof.
  intros (P & L1 & L2 & L3 & D & E). unfold task_lines. rewrite wanted_task_eq.
  destruct (get_document l (t_doc t)) as [d|] eqn:GD; [|change ([] ++ r) with r; destruct (sh Plain None [] r); reflexivity].
  destruct (as_export (t_job t)) as [e|] eqn:GE; [|change ([] ++ r) with r; destruct (sh Plain None [] r); reflexivity].
  change (lit "# From ") with (35 :: lit " From ").
  rewrite <- !app_assoc. cbn [app]. cbn [sh N.eqb Pos.eqb orb].
  rewrite sh_comment by (intros H; vm_compute in H; intuition discriminate). rewrite sh_comment by assumption.
  rewrite sh_comment by (intros H; vm_compute in H; intuition discriminate). rewrite sh_comment by assumption.
  rewrite sh_comment by (intros H; vm_compute in H; intuition discriminate). rewrite sh_comment by assumption.
  rewrite sh_comment by (intros H; vm_compute in H; intuition discriminate). cbn [app sh N.eqb Pos.eqb close done].
  destruct (ar_rest cwd d t e (D _ eq_refl) (E _ (proj1 (exports_iff _ _) GE)) P) as (ps & F & W).
  assert (C : command cwd d t e = lit "tinymist" :: rest_words cwd d t e) by reflexivity.
  assert (C' : wanted cwd d t e = lit "tinymist" :: skipn 1 (wanted cwd d t e)) by reflexivity.
  rewrite C, C'. unfold rest_words in *. destruct (skipn 1 (command cwd d t e)) as [|u us] eqn:S; [discriminate|].
  change (build (lit "tinymist" :: u :: us)) with (lit "tinymist" ++ [32] ++ build (u :: us)).
  rewrite <- !app_assoc.
  assert (H : forall z, sh Plain None [] (lit "tinymist" ++ [32] ++ z) = sh Plain None [lit "tinymist"] z) by reflexivity.
  rewrite H, (sh_build _ ps) by (first [assumption|discriminate]). rewrite W. destruct (sh Plain None [] r); reflexivity.
Qed.
Lemma sh_tasks cwd l ts : Forall (task_ok cwd l) ts ->
  sh Plain None [] (flat_map (task_lines cwd l) ts) = Some (flat_map (wanted_task cwd l) ts).
Proof.
  induction 1 as [|t ts T _ IH]; [reflexivity|]. cbn [flat_map]. now rewrite sh_task, IH.
Qed.
Theorem script_words s cwd l : s <> PowerShell -> Forall (task_ok cwd l) (l_tasks l) ->
  commands (script s cwd l) = Some (flat_map (wanted_task cwd l) (l_tasks l)).
Proof.
  intros S F. unfold commands, script.
  assert (H : forall z, sh Plain None [] (header s ++ z) = sh Plain None [] z) by (destruct s; try congruence; reflexivity).
  now rewrite H, sh_tasks.
Qed.
