(** C162 and C163: the script that builds the tasks of a lock file. *)
From Coq Require Import String Ascii.
From Coq Require Import List Arith NArith ZArith Bool Lia.
From Verif Require Import DigModel PageModel PageSpec PathModel ScrModel ScrSpec ScrProof ScrRunProof.
Import ListNotations.
Local Open Scope N_scope.

(** A lock file with a quote in a path, a space in another and a dollar sign in the name of a task. *)
Definition doc1 : input :=
  mkInput (lit "file:it's.typ") (Some (lit "file", lit "a b")) (lit "file", lit "it's.typ") [] [(lit "file", lit "fonts")] false None None.
Definition task1 : task :=
  mkTask (lit "$x") (lit "file:it's.typ") (JPdf (mkExport Never None [Pages [(Some 2, Some 5); (Some 7, None)]]) [A2b] None).
Definition task2 : task := mkTask (lit "y") (lit "file:it's.typ") (JPreview OnType).
Definition lock1 : lock := mkLock [doc1] [task1; task2].
Definition here : path := components (lit "/home/me").
Example ok1 : Forall (task_ok here lock1) (l_tasks lock1).
Proof.
  assert (D : forall d, get_document lock1 (lit "file:it's.typ") = Some d -> input_ok here d).
  { intros d H. vm_compute in H. injection H as <-. split; [intros H; vm_compute in H; intuition discriminate|]. split; [|intros k v []].
    intros r [R|[[R|[]]|[R|R]]]; cbn in R; try discriminate; injection R as <- || subst; intros H; vm_compute in H; intuition discriminate. }
  assert (X : forall t, t_doc t = lit "file:it's.typ" -> passable (t_id t) -> on_line (t_id t) -> on_line (extension (t_job t)) ->
    (forall e, as_export (t_job t) = Some e -> e_output e = None) -> task_ok here lock1 t).
  { intros t T A B C E. split; [exact A|]. split; [exact B|]. rewrite T. split; [intros H; vm_compute in H; intuition discriminate|].
    split; [exact C|]. split; [exact D|]. intros e H p P. rewrite (E e (proj2 (exports_iff _ _) H)) in P. discriminate. }
  apply Forall_cons; [|apply Forall_cons; [|apply Forall_nil]];
    (apply X; [reflexivity|intros H; vm_compute in H; intuition discriminate|intros H; vm_compute in H; intuition discriminate|intros H; vm_compute in H; intuition discriminate|]);
    intros e E; cbn in E; try discriminate; injection E as <-; reflexivity.
Qed.

(** C162: a shell reads the script as one command for each task that exports a document of the lock file,
    with exactly the words that the task asks for, whatever characters they have. *)
Theorem C162_words : forall s cwd l, s <> PowerShell -> Forall (task_ok cwd l) (l_tasks l) ->
  commands (script s cwd l) = Some (flat_map (wanted_task cwd l) (l_tasks l)).
Proof. exact script_words. Qed.
Print Assumptions C162_words.
Example C162_nonvacuous : commands (script Bash here lock1) =
  Some [[lit "tinymist"; lit "compile"; lit "--save-lock"; lit "--task"; lit "$x"; lit "it's.typ"; lit "--root"; lit "a b"; lit "--font-path"; lit "fonts";
         lit "--ignore-system-fonts"; lit "--pages"; lit "2-5"; lit "--pages"; lit "7-"; lit "--format=pdf"; lit "--pdf-standard"; lit "a-2b"]].
Proof. rewrite (C162_words Bash here lock1); [vm_compute; reflexivity|discriminate|exact ok1]. Qed.

(** A quoted text is one word, with nothing taken as an expansion, wherever it stands. *)
Theorem C162_quote : forall s w ws r, passable s -> sh Plain w ws (quote s ++ r) = sh Plain (Some (match w with Some w => w | None => [] end ++ s)) ws r.
Proof. intros s w ws r P. exact (sh_quote s P w ws r). Qed.
Print Assumptions C162_quote.

(** C162, what the script must not do: the name of a document that spans lines ends the comment, and the rest is a command. *)
Theorem C162_injection_refuted : exists l cwd cmds, commands (script Bash cwd l) = Some cmds /\ In [lit "reboot"] cmds /\
  Forall (fun t => passable (t_id t) /\ passable (t_doc t)) (l_tasks l).
Proof.
  pose (id := lit "a" ++ [10] ++ lit "reboot #").
  exists (mkLock [mkInput id None (lit "file", lit "a.typ") [] [] true None None] [mkTask (lit "t") id (JSvg (mkExport Never None []))]).
  exists here. eexists. split; [vm_compute; reflexivity|]. split; [now left|].
  repeat constructor; intros H; vm_compute in H; intuition discriminate.
Qed.
Print Assumptions C162_injection_refuted.

(** A path that is not a file is left out, and its option is not. *)
Theorem C162_lost_path_refuted : exists l cwd cmds, commands (script Bash cwd l) = Some cmds /\
  exists c, In c cmds /\ In (lit "--root") c /\ parse c = None.
Proof.
  exists (mkLock [mkInput (lit "d") (Some (lit "file_id", lit "$root/")) (lit "file", lit "a.typ") [] [] true None None] [mkTask (lit "t") (lit "d") (JSvg (mkExport Never None []))]).
  exists here. eexists. split; [vm_compute; reflexivity|]. eexists. split; [now left|]. split; [vm_compute; tauto|reflexivity].
Qed.
Print Assumptions C162_lost_path_refuted.

(** C163: running the script saves the documents and tasks of the lock file as they are, for documents that are
    known by their path and tasks that are all that the command can express. *)
Theorem C163_same_partial : forall s cwd l, s <> PowerShell -> NoDup (map t_id (l_tasks l)) -> Forall (task_ok cwd l) (l_tasks l) ->
  (forall t d e, In t (l_tasks l) -> get_document l (t_doc t) = Some d -> exports (t_job t) e -> repeatable d t) ->
  exists cmds, commands (script s cwd l) = Some cmds /\ Forall (fun c => run cwd l c = Some l) cmds.
Proof. intros s cwd l S N T R. apply run_script; try assumption. intros t d e I D E. apply (R t d e I D). now apply exports_iff. Qed.
Print Assumptions C163_same_partial.
Theorem C163_read_partial : forall cwd d t e, repeatable d t -> exports (t_job t) e ->
  exists a, parse (wanted cwd d t e) = Some a /\ to_input cwd a = Some d /\ to_task (i_id d) a = Some t.
Proof.
  intros cwd d t e R E. apply exports_iff in E. exists (result d t (e_changes e)). split; [now apply parse_wanted|].
  split; [apply to_input_result, R|now apply to_task_result].
Qed.
Print Assumptions C163_read_partial.
Example repeat1 : repeatable doc1 task1.
Proof.
  assert (C : forall s, dashed s = false -> calm s) by (intros s; apply calm_spec).
  assert (U : forall r, In r [(lit "file", lit "a b"); (lit "file", lit "it's.typ"); (lit "file", lit "fonts")] -> usual r).
  { intros r [<-|[<-|[<-|[]]]]; (repeat split; [reflexivity..|apply C; reflexivity]). }
  split; [split; [reflexivity|]; split; [apply U; right; now left|]; split; [reflexivity|]; split|split; [reflexivity|]; split; [apply C; reflexivity|]].
  - intros r [R|[R|R]]; cbn in R; try discriminate. injection R as <-. apply U. now left.
  - intros r [<-|[]]. split; [apply U; right; right; now left|]. intros H. vm_compute in H. intuition discriminate.
  - exists [Pages [(Some 2, Some 5); (Some 7, None)]]. split; [right; eexists; split; [reflexivity|]; split; [discriminate|]|left; now exists [A2b]].
    repeat constructor; cbn; try discriminate; unfold page, max64; lia.
Qed.
Example C163_nonvacuous : exists cmds, commands (script Zsh here lock1) = Some cmds /\ length cmds = 1%nat /\ Forall (fun c => run here lock1 c = Some lock1) cmds.
Proof.
  destruct (C163_same_partial Zsh here lock1) as (cmds & C & F).
  - discriminate.
  - repeat constructor; cbn; intuition discriminate.
  - exact ok1.
  - intros t d e [<-|[<-|[]]] D E; [|inversion E]. vm_compute in D. injection D as <-. exact repeat1.
  - exists cmds. split; [assumption|]. split; [|assumption]. rewrite C162_words in C; [|discriminate|exact ok1]. injection C as <-. reflexivity.
Qed.

(** C163, what is in the way: inputs, an output path, a pretty printer, a time stamp and three of the formats
    have no counterpart among the options, and the command is refused. *)
Theorem C163_unsupported : forall cwd d t e, ~ In [45; 45] (wanted cwd d t e) -> unsupported d t e -> run cwd (mkLock [] []) (wanted cwd d t e) = None.
Proof. intros cwd d t e N U. unfold run. now rewrite refused. Qed.
Print Assumptions C163_unsupported.
Example C163_unsupported_case : exists d t e, ~ In [45; 45] (wanted here d t e) /\ unsupported d t e /\ exports (t_job t) e.
Proof.
  exists doc1, (mkTask (lit "t") (i_id doc1) (JMd (mkExport Never (Some (lit "$root/x")) []))), (mkExport Never (Some (lit "$root/x")) []).
  split; [intros H; vm_compute in H; intuition discriminate|]. split; [right; left; discriminate|constructor].
Qed.

Definition plain_doc (id : text) : input := mkInput id None (lit "file", lit "a.typ") [] [] true None None.
Definition saved (d : input) (j : job) : option lock :=
  let t := mkTask (lit "t") (i_id d) j in
  match as_export j with Some e => run here (mkLock [d] [t]) (wanted here d t e) | None => None end.
(** The task forgets when to run. *)
Theorem C163_when_refuted : exists e, saved (plain_doc (lit "file:a.typ")) (JSvg e) = Some (mkLock [plain_doc (lit "file:a.typ")] [mkTask (lit "t") (lit "file:a.typ") (JSvg (mkExport Never None []))]) /\ e_when e = OnSave.
Proof. exists (mkExport OnSave None []). split; vm_compute; reflexivity. Qed.
Print Assumptions C163_when_refuted.
(** A document that has a name is saved a second time, without it, and the task goes to the second. *)
Theorem C163_name_refuted : exists id e t l, saved (plain_doc id) (JSvg e) = Some l /\ length (l_docs l) = 2%nat /\ In t (l_tasks l) /\ t_doc t <> id.
Proof.
  exists (lit "book"), (mkExport Never None []). eexists. eexists. split; [vm_compute; reflexivity|].
  split; [reflexivity|]. split; [now left|]. vm_compute. discriminate.
Qed.
Print Assumptions C163_name_refuted.
(** A task that exports HTML becomes one that exports SVG. *)
Theorem C163_html_refuted : exists e, saved (plain_doc (lit "file:a.typ")) (JHtml e) = Some (mkLock [plain_doc (lit "file:a.typ")] [mkTask (lit "t") (lit "file:a.typ") (JSvg e)]).
Proof. exists (mkExport Never None []). vm_compute. reflexivity. Qed.
Print Assumptions C163_html_refuted.
(** No command line makes a task that exports HTML, nor one with an output path. *)
Theorem C163_never_html : forall doc a t, to_task doc a = Some t ->
  exists e, exports (t_job t) e /\ e_output e = None /\ (forall e', t_job t <> JHtml e').
Proof.
  intros doc a t H. unfold to_task in H. destruct (output_format a) as [f|]; [|discriminate]. cbn [bind] in H. injection H as <-. cbn [t_job].
  destruct f; eexists; (split; [constructor|]; split; [reflexivity|discriminate]).
Qed.
Print Assumptions C163_never_html.
(** A query becomes an export of the document to PDF. *)
Theorem C163_query_refuted : exists e f, saved (plain_doc (lit "file:a.typ")) (JQuery e f None) = Some (mkLock [plain_doc (lit "file:a.typ")] [mkTask (lit "t") (lit "file:a.typ") (JPdf e [] None)]).
Proof. exists (mkExport Never None []), (lit "json"). vm_compute. reflexivity. Qed.
Print Assumptions C163_query_refuted.
(** The resolution of images goes back to the default. *)
Theorem C163_ppi_refuted : exists e n, saved (plain_doc (lit "file:a.typ")) (JPng e n None) = Some (mkLock [plain_doc (lit "file:a.typ")] [mkTask (lit "t") (lit "file:a.typ") (JPng e 144 None)]) /\ n <> 144.
Proof. exists (mkExport Never None []), 300. split; [vm_compute; reflexivity|discriminate]. Qed.
Print Assumptions C163_ppi_refuted.
(** A range of pages that starts with the first page looks like an option, and so does a path that starts with a hyphen. *)
Theorem C163_hyphen_refuted : exists e p, proper p /\ e_changes e = [Pages [p]] /\ saved (plain_doc (lit "file:a.typ")) (JSvg e) = None.
Proof.
  exists (mkExport Never None [Pages [(None, Some 5)]]), (None, Some 5). split; [|split; [reflexivity|vm_compute; reflexivity]].
  repeat split; cbn; try discriminate; unfold page, max64; lia.
Qed.
Print Assumptions C163_hyphen_refuted.
