(** Proofs about running the commands of the script (C163). *)
From Coq Require Import String Ascii.
From Coq Require Import List Arith NArith ZArith Bool Lia.
From Verif Require Import DigModel DigProof PageModel PageSpec PageProof PathModel PathSpec PathProof ScrModel ScrSpec ScrProof.
Import ListNotations.
Local Open Scope N_scope.

(** * Tokens *)
Definition becomes (args : list text) (ts : list token) : Prop :=
  forall r, tokens (args ++ r) = option_map (app ts) (tokens r).
Lemma option_map_id {A} (x : option (list A)) : x = option_map (app []) x.
Proof. destruct x; reflexivity. Qed.
Lemma b_nil : becomes [] [].
Proof. intros r. apply option_map_id. Qed.
Lemma b_app a b x y : becomes a x -> becomes b y -> becomes (a ++ b) (x ++ y).
Proof.
  intros A B r. rewrite <- app_assoc, A, B. destruct (tokens r); cbn; [now rewrite app_assoc|reflexivity].
Qed.
Lemma b_flat {A} (f : A -> list text) (g : A -> token) l : (forall x, In x l -> becomes (f x) [g x]) -> becomes (flat_map f l) (map g l).
Proof.
  induction l as [|x l IH]; intros H; [apply b_nil|]. cbn [flat_map map].
  apply (b_app _ _ [g x]); [apply H; now left|apply IH; intros; apply H; now right].
Qed.
Lemma calm_spec s : calm s <-> dashed s = false.
Proof.
  unfold calm, dashed. destruct s as [|c [|d r]]; split; intros H; try reflexivity; try (intros r0 E; congruence).
  - intros x E. now inversion E.
  - destruct (c =? 45) eqn:E; [|reflexivity]. apply N.eqb_eq in E. subst. specialize (H _ eq_refl). discriminate.
  - intros x E. inversion E; subst. discriminate.
Qed.
Lemma b_val o name v : calm v -> (forall r, tokens (lit name :: v :: r) = if dashed v then None else tcons (TVal o v) (tokens r)) ->
  becomes [lit name; v] [TVal o v].
Proof. intros C H r. apply calm_spec in C. cbn [app]. rewrite H, C. destruct (tokens r); reflexivity. Qed.
Lemma b_pos v : calm v -> becomes [v] [TPos v].
Proof.
  intros C r. apply calm_spec in C. cbn [app tokens]. unfold is_escape, as_long, as_short.
  destruct v as [|c [|d w]]; cbn in C |- *; try (destruct (tokens r); reflexivity).
  - destruct (c =? 45) eqn:E; cbn; destruct (tokens r); reflexivity.
  - rewrite C. cbn. destruct w; rewrite ?C; cbn; destruct (tokens r); reflexivity.
Qed.
Lemma b_flag name f : (forall r, tokens (lit name :: r) = tcons (TFlag f) (tokens r)) -> becomes [lit name] [TFlag f].
Proof. intros H r. cbn [app]. rewrite H. destruct (tokens r); reflexivity. Qed.
Definition opt_tok (o : opt) (x : option resource) : list token := match x with Some r => [TVal o (snd r)] | None => [] end.
Lemma usual_word cwd r : usual r -> path_word cwd r = [snd r].
Proof.
  intros (F & A & U & _). unfold path_word. rewrite (proj2 (text_eqb_spec _ _) F). unfold to_rel_path. now rewrite A, U.
Qed.
Lemma usual_resource cwd r : usual r -> resource_of cwd (snd r) = Some r.
Proof. intros (F & A & U & _). unfold resource_of, from_user_sys. rewrite A, U. destruct r as [a b]. cbn [fst snd] in *. now subst a. Qed.
Lemma usual_nonempty r : usual r -> snd r <> [].
Proof. intros (_ & _ & U & _). rewrite <- U. unfold unix_slash. destruct (slash_loop false (components (snd r))); discriminate. Qed.
Lemma b_path cwd name o r : usual r -> (forall v r, tokens (lit name :: v :: r) = if dashed v then None else tcons (TVal o v) (tokens r)) ->
  becomes (named cwd name r) [TVal o (snd r)].
Proof. intros U H. unfold named. rewrite usual_word by assumption. apply b_val; [apply U|auto]. Qed.
Lemma b_opt cwd name o x : (forall r, x = Some r -> usual r) -> (forall v r, tokens (lit name :: v :: r) = if dashed v then None else tcons (TVal o v) (tokens r)) ->
  becomes (option_words (named cwd name) x) (opt_tok o x).
Proof. intros U H. destruct x as [r|]; [|apply b_nil]. cbn [option_words opt_tok]. now apply b_path; auto. Qed.
Definition ranges (cs : list change) : list pages := match cs with [Pages rs] => rs | _ => [] end.
Lemma digit_calm c r : 48 <= c <= 57 -> calm (c :: r).
Proof. intros C x E. inversion E; subst. lia. Qed.
Lemma start_calm p : fst p <> None -> calm (print_pages p).
Proof.
  destruct p as [[a|] b]; [intros _|intros H; now cbn in H]. unfold print_pages. cbn [fst print_end].
  pose proof (dec_range a) as R. destruct (print_num 10 a) as [|c r] eqn:E; [now apply print_nonempty in E|].
  cbn [app]. apply digit_calm. now inversion R.
Qed.
Lemma b_changes cs : repeatable_pages cs -> becomes (flat_map wanted_change cs) (map (fun p => TVal OPages (print_pages p)) (ranges cs)).
Proof.
  intros [->|(rs & -> & _ & F)]; [apply b_nil|]. cbn [flat_map wanted_change ranges]. rewrite app_nil_r. rewrite Forall_forall in F.
  apply b_flat. intros p I. apply b_val; [apply start_calm, F; assumption|reflexivity].
Qed.
Definition form_name (j : job) : text := match j with JPdf _ _ _ => lit "pdf" | JPng _ _ _ => lit "png" | _ => lit "svg" end.
Definition job_standards (j : job) : list standard := match j with JPdf _ ss _ => ss | _ => [] end.
Lemma b_format j : repeatable_job j ->
  becomes (wanted_format j) (TVal OFormat (form_name j) :: map (fun s => TVal OStandard (standard_name s)) (job_standards j)).
Proof.
  intros (cs & _ & [(ss & ->) | [-> | ->] ]); cbn [wanted_format form_name job_standards map].
  - intros r. rewrite <- app_assoc.
    change (tokens ([lit "--format=pdf"] ++ (flat_map (fun s => [lit "--pdf-standard"; standard_name s]) ss ++ option_words (fun z => [lit "--creation-timestamp"; print_int z]) None) ++ r))
      with (tcons (TVal OFormat (lit "pdf")) (tokens ((flat_map (fun s => [lit "--pdf-standard"; standard_name s]) ss ++ []) ++ r))).
    rewrite app_nil_r, (b_flat _ (fun s => TVal OStandard (standard_name s))).
    + destruct (tokens r); reflexivity.
    + intros s _. apply b_val; [apply calm_spec; now destruct s|reflexivity].
  - intros r. cbn [app]. change (tokens (lit "--format=png" :: r)) with (tcons (TVal OFormat (lit "png")) (tokens r)). destruct (tokens r); reflexivity.
  - intros r. cbn [app]. change (tokens (lit "--format=svg" :: r)) with (tcons (TVal OFormat (lit "svg")) (tokens r)). destruct (tokens r); reflexivity.
Qed.
(** The tokens of a command. *)
Definition toks (d : input) (t : task) (cs : list change) : list token :=
  [TFlag FSave; TVal OTask (t_id t); TPos (snd (i_main d))] ++ opt_tok ORoot (i_root d)
  ++ map (fun r => TVal OFont (snd r)) (i_fonts d) ++ (if i_system d then [] else [TFlag FIgnore])
  ++ opt_tok OPkg (i_pkg d) ++ opt_tok OCache (i_cache d)
  ++ map (fun p => TVal OPages (print_pages p)) (ranges cs)
  ++ TVal OFormat (form_name (t_job t)) :: map (fun s => TVal OStandard (standard_name s)) (job_standards (t_job t)).
Lemma wanted_tokens cwd d t e : repeatable d t -> as_export (t_job t) = Some e ->
  tokens (skipn 2 (wanted cwd d t e)) = Some (toks d t (e_changes e)) /\ repeatable_pages (e_changes e).
Proof.
  intros ((_ & M & I & U & F) & _ & C & J) E.
  assert (P : repeatable_pages (e_changes e) /\ e_output e = None).
  { destruct J as (cs & P & J). destruct J as [(ss & K)|[K|K]]; rewrite K in E; cbn [as_export] in E; injection E as <-; now split. }
  destruct P as (P & O). split; [|assumption].
  assert (B : becomes (skipn 2 (wanted cwd d t e)) (toks d t (e_changes e))).
  { unfold wanted, toks. cbn [app skipn]. rewrite I, O. cbn [map option_words app].
    apply (b_app [_] _ [_]); [apply b_flag; reflexivity|].
    apply (b_app [_; _] _ [_]); [now apply b_val|].
    rewrite usual_word by assumption. apply (b_app [_] _ [_]); [apply b_pos, M|].
    apply b_app; [apply b_opt; auto|]. apply b_app; [apply b_flat; intros r H; apply b_path; [now apply F|reflexivity]|].
    apply b_app; [destruct (i_system d); [apply b_nil|apply b_flag; reflexivity]|].
    apply b_app; [apply b_opt; auto|]. apply b_app; [apply b_opt; auto|].
    apply b_app; [now apply b_changes|now apply b_format]. }
  specialize (B []). rewrite app_nil_r in B. rewrite B. cbn. now rewrite app_nil_r.
Qed.

(** * Arguments *)
Lemma vals_app o a b : vals o (a ++ b) = vals o a ++ vals o b.
Proof. apply flat_map_app. Qed.
Lemma vals_map {A} o o' (f : A -> text) l : vals o (map (fun x => TVal o' (f x)) l) = if opt_eqb o o' then map f l else [].
Proof. induction l as [|x l IH]; [now destruct (opt_eqb o o')|]. cbn [map vals flat_map]. fold (vals o (map (fun x => TVal o' (f x)) l)). rewrite IH. destruct (opt_eqb o o'); reflexivity. Qed.
Lemma vals_opt o o' x : vals o (opt_tok o' x) = if opt_eqb o o' then match x with Some r => [snd r] | None => [] end else [].
Proof. destruct x; cbn; destruct (opt_eqb o o'); reflexivity. Qed.
Lemma vals_flag o b f : vals o (if b : bool then [] else [TFlag f]) = [].
Proof. destruct b; reflexivity. Qed.
Lemma flags_app f a b : flags f (a ++ b) = (flags f a + flags f b)%nat.
Proof. unfold flags. now rewrite filter_app, app_length. Qed.
Lemma flags_map {A} f o (g : A -> text) l : flags f (map (fun x => TVal o (g x)) l) = O.
Proof. unfold flags. induction l as [|x l IH]; [reflexivity|]. cbn. destruct f; exact IH. Qed.
Lemma flags_opt f o x : flags f (opt_tok o x) = O.
Proof. destruct x, f; reflexivity. Qed.
Lemma poss_app a b : poss (a ++ b) = poss a ++ poss b.
Proof. apply flat_map_app. Qed.
Lemma poss_map {A} o (g : A -> text) l : poss (map (fun x => TVal o (g x)) l) = [].
Proof. induction l; [reflexivity|assumption]. Qed.
Lemma poss_opt o x : poss (opt_tok o x) = [].
Proof. destruct x; reflexivity. Qed.
Definition value (x : option resource) : option text := option_map snd x.
Lemma vals_toks o d t cs : vals o (toks d t cs) =
  match o with
  | OTask => [t_id t]
  | ORoot => match i_root d with Some r => [snd r] | None => [] end
  | OFont => map snd (i_fonts d)
  | OPkg => match i_pkg d with Some r => [snd r] | None => [] end
  | OCache => match i_cache d with Some r => [snd r] | None => [] end
  | OPages => map print_pages (ranges cs)
  | OFormat => [form_name (t_job t)]
  | OStandard => map standard_name (job_standards (t_job t))
  | _ => []
  end.
Proof.
  unfold toks. rewrite !vals_app, !vals_opt, vals_map, vals_flag, vals_map.
  change (vals o (TVal OFormat (form_name (t_job t)) :: map (fun s => TVal OStandard (standard_name s)) (job_standards (t_job t))))
    with ((if opt_eqb o OFormat then [form_name (t_job t)] else []) ++ vals o (map (fun s => TVal OStandard (standard_name s)) (job_standards (t_job t)))).
  rewrite vals_map. destruct o; cbn; rewrite ?app_nil_r; reflexivity.
Qed.
Lemma flags_toks f d t cs : flags f (toks d t cs) = match f with FSave => 1%nat | FIgnore => if i_system d then 0%nat else 1%nat end.
Proof.
  unfold toks. rewrite !flags_app, !flags_opt, !flags_map.
  change (flags f (TVal OFormat (form_name (t_job t)) :: map (fun s => TVal OStandard (standard_name s)) (job_standards (t_job t))))
    with (flags f ([TVal OFormat (form_name (t_job t))] ++ map (fun s => TVal OStandard (standard_name s)) (job_standards (t_job t)))).
  rewrite flags_app, flags_map. destruct f, (i_system d); reflexivity.
Qed.
Lemma poss_toks d t cs : poss (toks d t cs) = [snd (i_main d)].
Proof.
  unfold toks. rewrite !poss_app, !poss_opt, !poss_map.
  change (poss (TVal OFormat (form_name (t_job t)) :: map (fun s => TVal OStandard (standard_name s)) (job_standards (t_job t))))
    with (poss (map (fun s => TVal OStandard (standard_name s)) (job_standards (t_job t)))).
  rewrite poss_map. destruct (i_system d); reflexivity.
Qed.
Lemma split_none sep s : ~ In sep s -> split sep s = [s].
Proof.
  induction s as [|c s IH]; intros H; [reflexivity|]. cbn [split]. destruct (c =? sep) eqn:E; [apply N.eqb_eq in E; exfalso; apply H; now left|].
  rewrite IH; [reflexivity|]. intros X. apply H. now right.
Qed.
Lemma flat_split {A} sep (f : A -> text) l : (forall x, In x l -> ~ In sep (f x)) -> flat_map (split sep) (map f l) = map f l.
Proof.
  induction l as [|x l IH]; intros H; [reflexivity|]. cbn [map flat_map]. rewrite split_none by (apply H; now left). rewrite IH; [reflexivity|].
  intros y Y. apply H. now right.
Qed.
Lemma all_map {A B C} (f : B -> option C) (g : A -> B) (h : A -> C) l : (forall x, In x l -> f (g x) = Some (h x)) -> all f (map g l) = Some (map h l).
Proof.
  induction l as [|x l IH]; intros H; [reflexivity|]. cbn [map all]. rewrite H by (now left). rewrite IH; [reflexivity|]. intros y Y. apply H. now right.
Qed.
Lemma pages_no_comma p : ~ In 44 (print_pages p).
Proof.
  intros H. unfold print_pages in H. rewrite !in_app_iff in H.
  assert (N : forall x, ~ In 44 (print_end x)).
  { intros [n|]; [|intros []]. intros I. pose proof (dec_range n) as R. rewrite Forall_forall in R. apply R in I. lia. }
  destruct H as [H|[[H|[]]|H]]; [now apply N in H|discriminate|now apply N in H].
Qed.
Definition result (d : input) (t : task) (cs : list change) : cargs :=
  mkArgs None (snd (i_main d)) (value (i_root d)) (map snd (i_fonts d)) (negb (i_system d)) (value (i_pkg d)) (value (i_cache d))
    (Some (t_id t)) None None (Some (match t_job t with JPdf _ _ _ => FPdf | JPng _ _ _ => FPng | _ => FSvg end))
    (match ranges cs with [] => None | rs => Some rs end) (job_standards (t_job t)) default_ppi true None.
Lemma read_path_some s : s <> [] -> read_path s = Some s.
Proof. destruct s; [congruence|reflexivity]. Qed.
Lemma read_paths o ts x : vals o ts = match x with Some r => [snd r] | None => [] end -> (forall r, x = Some r -> usual r) ->
  bind (single o ts) (read read_path) = Some (value x).
Proof.
  intros V U. unfold single. rewrite V. destruct x as [r|]; [|reflexivity]. cbn [bind read value option_map].
  exact (f_equal (option_map Some) (read_path_some _ (usual_nonempty r (U _ eq_refl)))).
Qed.
Lemma arguments_toks d t cs : repeatable d t -> repeatable_pages cs -> arguments (toks d t cs) = Some (result d t cs).
Proof.
  intros ((_ & M & I & U & F) & _ & C & J) P. unfold arguments.
  rewrite (read_paths OPkg _ (i_pkg d)) by (first [now rewrite vals_toks|auto]).
  rewrite (read_paths OCache _ (i_cache d)) by (first [now rewrite vals_toks|auto]).
  unfold single, one. rewrite !vals_toks, !flags_toks, poss_toks.
  cbn [bind].
  replace (match match i_root d with Some r => [snd r] | None => [] end with [] => Some None | [v] => Some (Some v) | _ => None end)
    with (Some (value (i_root d))) by (destruct (i_root d); reflexivity). cbn [bind].
  rewrite flat_split by (intros; now apply F).
  rewrite (all_map _ _ snd).
  2:{ intros r R. apply read_path_some, usual_nonempty, F. exact R. }
  replace (match (if i_system d then 0%nat else 1%nat) with O => Some false | S O => Some true | _ => None end) with (Some (negb (i_system d))) by (destruct (i_system d); reflexivity).
  cbn [bind read option_map].
  assert (Fm : assoc (form_name (t_job t)) formats = Some (match t_job t with JPdf _ _ _ => FPdf | JPng _ _ _ => FPng | _ => FSvg end)).
  { destruct J as (cs' & _ & [(ss & ->) | [-> | ->] ]); reflexivity. }
  rewrite Fm. cbn [bind option_map].
  rewrite flat_split by (intros; apply pages_no_comma). rewrite (all_map _ _ (fun p => p)).
  2:{ intros p H. unfold read_pages. destruct P as [->|(rs & -> & _ & R)]; [destruct H|]. cbn [ranges] in H. rewrite Forall_forall in R.
      apply R in H. now rewrite (print_parse p) by apply H. }
  rewrite map_id. cbn [bind]. rewrite flat_split by (intros [] _ H; vm_compute in H; intuition discriminate).
  rewrite (all_map _ _ (fun s => s)) by (intros [] _; reflexivity). rewrite map_id. cbn [bind read].
  unfold result. destruct (ranges cs), (i_root d); reflexivity.
Qed.
Lemma parse_wanted cwd d t e : repeatable d t -> as_export (t_job t) = Some e ->
  parse (wanted cwd d t e) = Some (result d t (e_changes e)).
Proof.
  intros R E. destruct (wanted_tokens cwd d t e R E) as (T & P).
  change (parse (wanted cwd d t e)) with (bind (tokens (skipn 2 (wanted cwd d t e))) arguments). rewrite T. cbn [bind]. now apply arguments_toks.
Qed.
Lemma to_input_result cwd d t cs : repeatable_input d -> to_input cwd (result d t cs) = Some d.
Proof.
  intros (N & M & I & U & F). unfold to_input, result. cbn [a_input a_root a_fonts a_pkg a_cache a_name a_ignore].
  rewrite usual_resource by assumption. cbn [bind].
  assert (R : forall x, (forall r, x = Some r -> usual r) -> read (resource_of cwd) (value x) = Some x).
  { intros [r|] H; [|reflexivity]. cbn [read value option_map]. now rewrite usual_resource by auto. }
  rewrite R by auto. cbn [bind]. rewrite (all_map _ _ (fun r => r)).
  2:{ intros r H. apply usual_resource. now apply F. }
  rewrite map_id. cbn [bind]. rewrite R by auto. cbn [bind]. rewrite R by auto. cbn [bind].
  rewrite <- N, negb_involutive, <- I. now destruct d.
Qed.
Lemma to_task_result d t e : repeatable d t -> as_export (t_job t) = Some e -> to_task (i_id d) (result d t (e_changes e)) = Some t.
Proof.
  intros (_ & D & _ & J) E. unfold to_task, result, output_format. cbn [a_format bind a_when a_pages a_standards a_task a_ppi].
  destruct J as (cs & P & J). destruct t as [id doc job]. cbn [t_job t_doc t_id] in *. subst doc.
  assert (R : match match ranges cs with [] => None | rs => Some rs end with Some ps => [Pages ps] | None => [] end = cs).
  { destruct P as [->|(rs & -> & N & _)]; [reflexivity|]. cbn [ranges]. destruct rs; [congruence|reflexivity]. }
  destruct J as [(ss & ->) | [-> | ->] ]; cbn [as_export] in E; injection E as <-; cbn [e_changes job_standards]; rewrite R; reflexivity.
Qed.
Lemma put_same {A} (key : A -> text) x l : find (fun y => text_eqb (key y) (key x)) l = Some x -> put key x l = l.
Proof.
  induction l as [|y l IH]; [discriminate|]. cbn. destruct (text_eqb (key y) (key x)); intros H; [now inversion H|now rewrite IH].
Qed.
Lemma find_nodup (l : list task) t : NoDup (map t_id l) -> In t l -> find (fun y => text_eqb (t_id y) (t_id t)) l = Some t.
Proof.
  induction l as [|y l IH]; intros N I; [destruct I|]. cbn. inversion N as [|? ? X Y]; subst. destruct (text_eqb (t_id y) (t_id t)) eqn:E.
  - apply text_eqb_spec in E. destruct I as [->|I]; [reflexivity|]. exfalso. apply X. rewrite E. now apply in_map.
  - destruct I as [->|I]; [|now apply IH]. rewrite (proj2 (text_eqb_spec _ _) eq_refl) in E. discriminate.
Qed.
Theorem run_wanted cwd l d t e : NoDup (map t_id (l_tasks l)) -> In t (l_tasks l) -> get_document l (t_doc t) = Some d ->
  as_export (t_job t) = Some e -> repeatable d t -> run cwd l (wanted cwd d t e) = Some l.
Proof.
  intros N I D E R. unfold run. rewrite (parse_wanted _ _ _ _ R E). cbn [bind].
  rewrite to_input_result by apply R. cbn [bind]. rewrite (to_task_result _ _ _ R E). cbn [bind].
  unfold saves, result. cbn [a_save orb]. unfold replace_task, replace_document. cbn [l_docs l_tasks].
  assert (G : find (fun y => text_eqb (i_id y) (i_id d)) (l_docs l) = Some d).
  { destruct R as (_ & X & _). unfold get_document in D. now rewrite X in D. }
  rewrite (put_same i_id d), (put_same t_id t); [now destruct l|now apply find_nodup|assumption].
Qed.
Theorem run_script s cwd l : s <> PowerShell -> NoDup (map t_id (l_tasks l)) -> Forall (task_ok cwd l) (l_tasks l) ->
  (forall t d e, In t (l_tasks l) -> get_document l (t_doc t) = Some d -> as_export (t_job t) = Some e -> repeatable d t) ->
  exists cmds, commands (script s cwd l) = Some cmds /\ Forall (fun c => run cwd l c = Some l) cmds.
Proof.
  intros S N F R. exists (flat_map (wanted_task cwd l) (l_tasks l)). split; [now apply script_words|].
  apply Forall_forall. intros c I. apply in_flat_map in I. destruct I as (t & T & I). rewrite wanted_task_eq in I.
  destruct (get_document l (t_doc t)) as [d|] eqn:D; [|destruct I]. destruct (as_export (t_job t)) as [e|] eqn:E; [|destruct I].
  destruct I as [<-|[]]. apply run_wanted; auto. now apply (R t d e).
Qed.

(** * Commands that are refused *)
Definition unknown (w : text) : Prop := exists b, as_long w = Some b /\ assoc (fst (split_eq b)) longs = None.
Lemma long_dashed w b : as_long w = Some b -> dashed w = true /\ is_escape w = false.
Proof.
  unfold as_long, dashed, is_escape. destruct w as [|x [|y [|z w]]]; try discriminate.
  destruct ((x =? 45) && (y =? 45)) eqn:E; [|discriminate]. apply andb_true_iff in E. destruct E as (E1 & E2). intros _.
  split; [assumption|]. cbn [text_eqb]. now rewrite E1, E2.
Qed.
Lemma tokens_unknown w B : unknown w -> forall n A, (length A <= n)%nat -> ~ In [45; 45] A -> tokens (A ++ w :: B) = None.
Proof.
  intros (b & L & K). destruct (long_dashed _ _ L) as (Dw & Ew). induction n as [|n IH]; intros A HA NE.
  - destruct A; [|cbn in HA; lia]. cbn [app tokens]. rewrite Ew, L. destruct (split_eq b) as (nm, v). cbn [fst] in K. now rewrite K.
  - destruct A as [|a A]; [cbn [app tokens]; rewrite Ew, L; destruct (split_eq b) as (nm, v); cbn [fst] in K; now rewrite K|].
    cbn in HA. assert (NA : ~ In [45; 45] A) by (intros H; apply NE; now right).
    assert (IHA : tokens (A ++ w :: B) = None) by (apply IH; [lia|assumption]).
    cbn [app tokens]. destruct (is_escape a) eqn:Ea.
    { exfalso. apply NE. left. now apply text_eqb_spec in Ea. }
    assert (Next : forall o, match A ++ w :: B with v :: r' => if dashed v then None else tcons (TVal o v) (tokens r') | [] => None end = None).
    { intros o. destruct A as [|v A]; cbn [app]; [now rewrite Dw|]. destruct (dashed v); [reflexivity|].
      rewrite (IH A); [reflexivity|cbn in HA; lia|intros H; apply NA; now right]. }
    rewrite IHA. destruct (as_long a) as [bd|].
    + destruct (split_eq bd) as (nm, v). destruct (assoc nm longs) as [[o|f]|]; [|destruct v; reflexivity|reflexivity].
      destruct v; [reflexivity|apply Next].
    + destruct (as_short a) as [[|c v]|]; [apply Next|reflexivity|destruct (dashed a); reflexivity].
Qed.
Lemma tokens_last w v : as_long w = Some (lit "format=" ++ v) -> forall n A ts, (length A <= n)%nat -> ~ In [45; 45] A ->
  tokens (A ++ [w]) = Some ts -> In (TVal OFormat v) ts.
Proof.
  intros L. destruct (long_dashed _ _ L) as (Dw & Ew).
  assert (Z : tokens [w] = Some [TVal OFormat v]) by (cbn [tokens]; rewrite Ew, L; reflexivity).
  induction n as [|n IH]; intros A ts HA NE T.
  - destruct A; [|cbn in HA; lia]. cbn [app] in T. rewrite Z in T. inversion T. now left.
  - destruct A as [|a A]; [cbn [app] in T; rewrite Z in T; inversion T; now left|].
    cbn in HA. assert (NA : ~ In [45; 45] A) by (intros H; apply NE; now right).
    assert (IHA : forall ts, tokens (A ++ [w]) = Some ts -> In (TVal OFormat v) ts) by (intros; apply (IH A); [lia|assumption|assumption]).
    assert (Step : forall t, tcons t (tokens (A ++ [w])) = Some ts -> In (TVal OFormat v) ts).
    { intros t H. destruct (tokens (A ++ [w])) as [x|]; [|discriminate]. inversion H; subst. right. now apply IHA. }
    assert (Next : forall o, match A ++ [w] with v :: r' => if dashed v then None else tcons (TVal o v) (tokens r') | [] => None end = Some ts -> In (TVal OFormat v) ts).
    { intros o. destruct A as [|u A]; cbn [app]; [now rewrite Dw|]. destruct (dashed u); [discriminate|].
      intros H. destruct (tokens (A ++ [w])) as [x|] eqn:X; [|discriminate]. inversion H; subst. right.
      apply (IH A); [cbn in HA; lia|intros H'; apply NA; now right|assumption]. }
    cbn [app tokens] in T. destruct (is_escape a) eqn:Ea.
    { exfalso. apply NE. left. now apply text_eqb_spec in Ea. }
    destruct (as_long a) as [bd|].
    + destruct (split_eq bd) as (nm, x). destruct (assoc nm longs) as [[o|f]|]; [destruct x; [now apply (Step _ T)|now apply (Next _ T)]|destruct x; [discriminate|now apply (Step _ T)]|discriminate].
    + destruct (as_short a) as [[|c x]|]; [now apply (Next _ T)|now apply (Step _ T)|]. destruct (dashed a); [discriminate|now apply (Step _ T)].
Qed.
Lemma format_unknown v ts : In (TVal OFormat v) ts -> assoc v formats = None -> arguments ts = None.
Proof.
  intros I N. assert (V : In v (vals OFormat ts)) by (unfold vals; apply in_flat_map; exists (TVal OFormat v); split; [assumption|now left]).
  assert (Q : bind (single OFormat ts) (read (fun s => assoc s formats)) = None).
  { unfold single. destruct (vals OFormat ts) as [|x [|y r]]; [destruct V| |reflexivity]. destruct V as [->|[]]. cbn [bind read]. now rewrite N. }
  unfold arguments. rewrite Q. cbn [bind].
  repeat match goal with |- bind ?x _ = None => destruct x; [cbn [bind]|reflexivity] end. reflexivity.
Qed.
(** What the command has no option for. *)
Definition unsupported (d : input) (t : task) (e : export) : Prop :=
  i_inputs d <> [] \/ e_output e <> None \/ (exists s, In (Pretty s) (e_changes e)) \/
  (exists e' ss z, t_job t = JPdf e' ss (Some z)) \/
  (exists e', t_job t = JSvgHtml e' \/ t_job t = JMd e' \/ t_job t = JText e').
Lemma parse_none cwd d t e : tokens (skipn 2 (wanted cwd d t e)) = None -> parse (wanted cwd d t e) = None.
Proof. intros H. change (parse (wanted cwd d t e)) with (bind (tokens (skipn 2 (wanted cwd d t e))) arguments). now rewrite H. Qed.
Lemma unknown_word cwd d t e w : In w (skipn 2 (wanted cwd d t e)) -> unknown w -> ~ In [45; 45] (wanted cwd d t e) -> parse (wanted cwd d t e) = None.
Proof.
  intros I U N. apply parse_none. apply in_split in I. destruct I as (A & B & E). rewrite E. apply (tokens_unknown w B U (length A)); [apply Nat.le_refl|].
  intros H. apply N. change (wanted cwd d t e) with (lit "tinymist" :: lit "compile" :: skipn 2 (wanted cwd d t e)). right. right. rewrite E, in_app_iff. now left.
Qed.
Lemma input_unknown k v : unknown (lit "--input=" ++ k ++ [61] ++ v).
Proof. eexists. split; [reflexivity|]. reflexivity. Qed.
Theorem refused cwd d t e : ~ In [45; 45] (wanted cwd d t e) -> unsupported d t e -> parse (wanted cwd d t e) = None.
Proof.
  intros N [I|[O|[(s & P)|[(e' & ss & z & J)|(e' & J)]]]].
  - destruct (i_inputs d) as [|(k, v) r] eqn:E; [congruence|]. apply (unknown_word cwd d t e (lit "--input=" ++ k ++ [61] ++ v)); [|apply input_unknown|assumption].
    assert (X : In (lit "--input=" ++ k ++ [61] ++ v) (map (fun kv => lit "--input=" ++ fst kv ++ [61] ++ snd kv) (i_inputs d))) by (rewrite E; now left).
    unfold wanted. cbn [app skipn]. right. right. right. do 2 (apply in_or_app; right). apply in_or_app; left. exact X.
  - destruct (e_output e) as [p|] eqn:E; [|congruence]. apply (unknown_word cwd d t e (lit "--output")); [|eexists; split; reflexivity|assumption].
    assert (X : In (lit "--output") (option_words (fun p => [lit "--output"; p]) (e_output e))) by (rewrite E; now left).
    unfold wanted. cbn [app skipn]. right. right. right. do 7 (apply in_or_app; right). apply in_or_app; left. exact X.
  - apply (unknown_word cwd d t e (lit "--pretty")); [|eexists; split; reflexivity|assumption].
    assert (X : In (lit "--pretty") (flat_map wanted_change (e_changes e))) by (apply in_flat_map; exists (Pretty s); split; [assumption|now left]).
    unfold wanted. cbn [app skipn]. right. right. right. do 8 (apply in_or_app; right). apply in_or_app; left. exact X.
  - apply (unknown_word cwd d t e (lit "--creation-timestamp")); [|eexists; split; reflexivity|assumption].
    assert (X : In (lit "--creation-timestamp") (wanted_format (t_job t))).
    { rewrite J. cbn [wanted_format option_words]. rewrite !in_app_iff. right. right. now left. }
    unfold wanted. cbn [app skipn]. right. right. right. do 9 (apply in_or_app; right). exact X.
  - assert (X : exists A v, wanted cwd d t e = lit "tinymist" :: lit "compile" :: A ++ [lit "--format=" ++ v] /\ assoc v formats = None).
    { assert (Y : forall v, wanted_format (t_job t) = [lit "--format=" ++ v] -> exists A, wanted cwd d t e = lit "tinymist" :: lit "compile" :: A ++ [lit "--format=" ++ v]).
      { intros v H. exists ([lit "--save-lock"; lit "--task"; t_id t] ++ path_word cwd (i_main d)
          ++ option_words (named cwd "--root") (i_root d)
          ++ map (fun kv => lit "--input=" ++ fst kv ++ [61] ++ snd kv) (i_inputs d)
          ++ flat_map (named cwd "--font-path") (i_fonts d)
          ++ (if i_system d then [] else [lit "--ignore-system-fonts"])
          ++ option_words (named cwd "--package-path") (i_pkg d)
          ++ option_words (named cwd "--package-cache-path") (i_cache d)
          ++ option_words (fun p => [lit "--output"; p]) (e_output e)
          ++ flat_map wanted_change (e_changes e)).
        unfold wanted. rewrite H, <- !app_assoc. reflexivity. }
      destruct J as [J|[J|J]]; rewrite J in Y; cbn [wanted_format] in Y.
      - destruct (Y (lit "svg_html") eq_refl) as (A & H). now exists A, (lit "svg_html").
      - destruct (Y (lit "md") eq_refl) as (A & H). now exists A, (lit "md").
      - destruct (Y (lit "txt") eq_refl) as (A & H). now exists A, (lit "txt"). }
    destruct X as (A & v & E & F). rewrite E in *. change (parse (lit "tinymist" :: lit "compile" :: A ++ [lit "--format=" ++ v])) with (bind (tokens (A ++ [lit "--format=" ++ v])) arguments).
    destruct (tokens (A ++ [lit "--format=" ++ v])) as [ts|] eqn:T; [|reflexivity]. cbn [bind].
    apply (format_unknown v); [|assumption]. apply (tokens_last (lit "--format=" ++ v) v eq_refl (length A) A ts); [apply Nat.le_refl| |assumption].
    intros H. apply N. right. right. rewrite in_app_iff. now left.
Qed.
