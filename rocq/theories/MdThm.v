(** Theorems about the conversion of documents to Markdown. *)
From Coq Require Import String.
From Coq Require Import List Arith NArith ZArith Bool Lia.
From Verif Require Import MdModel MdSpec MdProof MdTextProof MdKeepProof.
Import ListNotations.
Local Open Scope nat_scope.

(** A world for the cases: the compiler gives back the code. *)
Definition env0 : env :=
  {| color_theme := None; assets := None; sources := None; gfm := false; annotate := false; soft_error := true; remove_html := false; docs_lib := false;
     compile := fun code t => inl (theme_name t ++ code); base64 := fun t => t; quoted := fun t => t |}.
Definition env_plain : env :=
  {| color_theme := None; assets := None; sources := None; gfm := false; annotate := false; soft_error := true; remove_html := true; docs_lib := true;
     compile := fun code t => inl code; base64 := fun t => t; quoted := fun t => t |}.
Definition env_files (th : option theme) (docs : bool) : env :=
  {| color_theme := th; assets := Some (lit "a"); sources := Some (lit "s"); gfm := false; annotate := true; soft_error := true; remove_html := false; docs_lib := docs;
     compile := fun code t => inl (lit "svg"); base64 := fun t => t; quoted := fun t => t |}.
Definition env_one : env :=
  {| color_theme := Some Dark; assets := None; sources := None; gfm := false; annotate := false; soft_error := true; remove_html := false; docs_lib := true;
     compile := fun code t => inl code; base64 := fun t => t; quoted := fun t => t |}.
Definition env_err : env :=
  {| color_theme := None; assets := None; sources := None; gfm := false; annotate := false; soft_error := true; remove_html := false; docs_lib := false;
     compile := fun code t => inr (lit "unknown `x`"); base64 := fun t => t; quoted := fun t => t |}.
Definition no_files : text -> step text := fun _ => fail.

(** * C142 *)

(** The fence of a raw block is longer than all runs of backticks, and no longer than it has to be. *)
Theorem C142_fence_partial : forall e inc t s st,
  (forall a, s <> a ++ [96%N]) ->
  exists n, eval e inc (Call t (Name (lit "raw")) [(None, StrLit s)]) st = Done (VContent (repeat 96%N n ++ [10%N] ++ s ++ [10%N] ++ repeat 96%N n)) st /\
    3 <= n /\ ~ has_run n s /\ (n = 3 \/ has_run (pred n) s).
Proof.
  intros e inc t s st H. destruct (fence_ok s H) as (n & E & H1 & H2 & H3). exists n. split; [|auto]. rewrite <- E. reflexivity.
Qed.
Print Assumptions C142_fence_partial.

(** A run at the end of the text is not counted. *)
Theorem C142_fence_refuted : exists s n, forall e inc t st,
  eval e inc (Call t (Name (lit "raw")) [(None, StrLit s)]) st = Done (VContent (repeat 96%N n ++ [10%N] ++ s ++ [10%N] ++ repeat 96%N n)) st /\ has_run n s.
Proof. exists (lit "a````"), 3. intros. split; [reflexivity|]. exists (lit "a"), [96%N]. reflexivity. Qed.
Print Assumptions C142_fence_refuted.

(** Raw text of one line between two backticks. *)
Theorem C142_inline_partial : forall e inc lang t l st,
  lang <> Some (lit "typlite") -> eval e inc (Raw lang false t [l]) st = Done (VContent ([96%N] ++ l ++ [96%N])) st.
Proof.
  intros e inc lang t l st H. cbn [eval]. unfold raw_text. assert (E : match lang with Some x => text_eqb x (lit "typlite") | None => false end = false).
  { destruct lang as [x|]; [|auto]. destruct (text_eqb x (lit "typlite")) eqn:E; [|auto]. apply text_eqb_ok in E. congruence. }
  rewrite E. cbn [concat]. rewrite app_nil_r. reflexivity.
Qed.
Print Assumptions C142_inline_partial.

(** Lines are glued together; a backtick ends the raw text. *)
Theorem C142_inline_refuted : exists t1 l1 t2 l2 t3 l3, l1 <> l2 /\ has_run 1 l3 /\ forall e inc st,
  eval e inc (Raw None false t1 l1) st = eval e inc (Raw None false t2 l2) st /\
  eval e inc (Raw None false t3 [l3]) st = Done (VContent ([96%N] ++ l3 ++ [96%N])) st.
Proof.
  exists (lit "`a
b`"), [lit "a"; lit "b"], (lit "`ab`"), [lit "ab"], (lit "```a`b```"), (lit "a`b"). split; [discriminate|]. split; [exists (lit "a"), (lit "b"); reflexivity|]. intros. split; reflexivity.
Qed.
Print Assumptions C142_inline_refuted.

(** An error is shown in a block it cannot end, if errors are to be shown. *)
Theorem C142_error : forall e inc b t err st,
  remove_html e = false -> (forall code th, compile e code th = inr err) ->
  if soft_error e then
    exists body s', eval e inc (Equation b t) st = Done (VContent (lit "```" ++ [10%N] ++ lit "Render Error" ++ [10%N] ++ body ++ [10%N] ++ lit "```")) s' /\
      ~ has_run 2 body /\ (~ In 96%N err -> body = err)
  else eval e inc (Equation b t) st = Failed.
Proof.
  intros e inc b t err st Hr Hc. cbn [eval]. rewrite Hr. unfold render, render_code, render_inner, with_data, error_block, bind, write, ret, fail.
  destruct (sources e); destruct (color_theme e); rewrite Hc; destruct (soft_error e); auto;
    (exists (flat_map (fun c => if N.eqb c 96 then [92; 96]%N else [c]) err); eexists; split; [reflexivity|]; split; [apply escaped_ok|]; intros H; clear -H; induction err as [|c err IH]; cbn; [auto|];
     destruct (N.eqb_spec c 96) as [->|Hc]; [exfalso; apply H; left; auto|]; cbn; f_equal; apply IH; intros Hx; apply H; right; auto).
Qed.
Print Assumptions C142_error.

(** A context shown as code is not fenced by its backticks. *)
Theorem C142_context_refuted : exists t, has_run 3 t /\ forall e inc st, remove_html e = true ->
  eval e inc (Contextual t) st = Done (VContent (repeat 96%N 3 ++ lit "typc" ++ [10%N] ++ t ++ [10%N] ++ repeat 96%N 3)) st.
Proof.
  exists (lit "context ```a```"). split; [exists (lit "context "), (lit "a```"); reflexivity|]. intros e inc st H. cbn [eval]. unfold contextual. rewrite H. reflexivity.
Qed.
Print Assumptions C142_context_refuted.

Example C142_nonvacuous :
  eval env0 no_files (Call [] (Name (lit "raw")) [(None, StrLit (lit "a````b"))]) start = Done (VContent (lit "`````
a````b
`````")) start /\
  (forall a, lit "a````b" <> a ++ [96%N]) /\
  (exists s', eval env_err no_files (Equation true (lit "x")) start = Done (VContent (lit "```
Render Error
unknown \`x\`
```")) s').
Proof.
  split; [vm_compute; reflexivity|]. split.
  - intros a H. change (lit "a````b") with (lit "a````" ++ [98%N]) in H. apply app_inj_tail in H. destruct H as (_ & H). discriminate.
  - eexists. vm_compute. reflexivity.
Qed.

(** * C143 *)

(** A box is its title and every line of its body as a quote. *)
Theorem C143_boxes : forall e inc t x title b st v st' ls,
  In (x, title) boxes -> eval e inc b st = Done v st' -> is_lines (show v) ls ->
  eval e inc (Call t (Name x) [(None, b)]) st =
  Done (VContent (lit "> [!" ++ title ++ lit "]" ++ [10%N] ++ concat (map (fun l => lit "> " ++ l ++ [10%N]) ls))) st'.
Proof.
  intros e inc t x title b st v st' ls Hx Hv Hl. rewrite eval_call. unfold kept, bind at 1.
  assert (E : library e x (map (argument e inc) [(None, b)]) st = Done (VContent (note_box title (show v))) st').
  { assert (E' : with_body (map (argument e inc) [(None, b)]) (fun t => VContent (note_box title t)) st = Done (VContent (note_box title (show v))) st').
    { unfold with_body. cbn. unfold bind, as_content, bind, ret. rewrite Hv. reflexivity. }
    rewrite <- E'. unfold boxes in Hx. repeat destruct Hx as [Hx|Hx]; try (injection Hx as <- <-; reflexivity). destruct Hx. }
  rewrite E. unfold note_box. rewrite (lines_fun _ _ Hl), flat_concat. reflexivity.
Qed.
Print Assumptions C143_boxes.
(** Every text has lines. *)
Theorem C143_lines : forall s, exists ls, is_lines s ls /\ forall ls', is_lines s ls' -> ls' = ls.
Proof.
  intros s. destruct (lines_total (length s) s (le_n _)) as (ls & H). exists ls. split; [auto|]. intros ls' H'. apply lines_fun in H, H'. congruence.
Qed.
Print Assumptions C143_lines.
Example C143_nonvacuous :
  is_lines (lit "a
b") [lit "a"; lit "b"] /\
  eval env0 no_files (Call [] (Name (lit "tip-box")) [(None, Seq [Verbatim (lit "a"); LineBreak; Strong (Verbatim (lit "b"))])]) start = Done (VContent (lit "> [!TIP]
> a
> **b**
")) start.
Proof.
  split; [|vm_compute; reflexivity]. apply (lines_nl (lit "a") (lit "b") [lit "b"]).
  - intros [H|[]]. discriminate.
  - intros x H. change (lit "a") with ([] ++ [97%N]) in H. apply app_inj_tail in H. destruct H. discriminate.
  - constructor; [discriminate|]. intros [H|[]]. discriminate.
Qed.

(** * C144 *)

(** A table has the header, and the cells in rows of as many cells as it has columns. *)
Theorem C144_rows_partial : forall e inc t kind c n ns st hs cs st' rows,
  kind = lit "table" \/ kind = lit "grid" -> n <> 0 -> c = ArrayLit n \/ c = IntLit (Z.of_nat n) ->
  gathers (eval e inc) kind ns st hs cs st' -> in_rows n cs rows ->
  eval e inc (Call t (Name kind) ((Some (lit "columns"), c) :: map (pair None) ns)) st = Done (VContent (html hs rows)) st'.
Proof.
  intros e inc t kind c n ns st hs cs st' rows Hk Hn Hc Hg Hr. rewrite eval_call. unfold kept, bind at 1.
  set (l := map (argument e inc) ((Some (lit "columns"), c) :: map (pair None) ns)).
  assert (E : table_fn kind l st = Done (VContent (html hs rows)) st').
  { unfold table_fn. assert (Ec : columns_of l = Some (Some n)).
    { destruct Hc as [->| ->]; [reflexivity|]. change (columns_of l) with (Some (if Z.ltb (Z.of_nat n) 0 then None else Some (Z.to_nat (Z.of_nat n)))). destruct (Z.ltb_spec (Z.of_nat n) 0); [lia|]. rewrite Nat2Z.id. auto. }
    rewrite Ec. change (positional l) with (positional (map (argument e inc) (map (pair None) ns))). rewrite positional_all. unfold bind. rewrite (cells_fun _ _ _ _ _ _ _ _ Hg). cbn [fst snd].
    destruct (Nat.eqb_spec n 0); [contradiction|]. rewrite (chunks_fun n cs rows Hn Hr (length cs) (le_n _)), html_ok. reflexivity. }
  assert (E' : library e kind l st = table_fn kind l st) by (destruct Hk as [->| ->]; reflexivity). rewrite E', E. reflexivity.
Qed.
Print Assumptions C144_rows_partial.
(** One column if none is given. *)
Theorem C144_default_partial : forall e inc t kind ns st hs cs st',
  kind = lit "table" \/ kind = lit "grid" -> gathers (eval e inc) kind ns st hs cs st' ->
  eval e inc (Call t (Name kind) (map (pair None) ns)) st = Done (VContent (html hs (map (fun c => [c]) cs))) st'.
Proof.
  intros e inc t kind ns st hs cs st' Hk Hg. rewrite eval_call. unfold kept, bind at 1. set (l := map (argument e inc) (map (pair None) ns)).
  assert (E : table_fn kind l st = Done (VContent (html hs (map (fun c => [c]) cs))) st').
  { unfold table_fn, columns_of, l. rewrite named_none, positional_all. unfold bind. rewrite (cells_fun _ _ _ _ _ _ _ _ Hg). cbn [fst snd Nat.eqb].
    assert (C : chunks 1 (length cs) cs = map (fun c => [c]) cs) by (clear; induction cs as [|c cs IH]; [auto|]; cbn [length chunks firstn skipn map]; rewrite IH; auto).
    rewrite C, html_ok. reflexivity. }
  assert (E' : library e kind l st = table_fn kind l st) by (destruct Hk as [->| ->]; reflexivity). rewrite E', E. reflexivity.
Qed.
Print Assumptions C144_default_partial.
(** Cells can always be put in rows. *)
Theorem C144_in_rows : forall n (cs : list text), n <> 0 -> exists rows, in_rows n cs rows /\ concat rows = cs.
Proof.
  intros n cs Hn. destruct (rows_total n Hn (length cs) cs (le_n _)) as (rows & H). exists rows. split; [auto|]. clear -H. induction H; cbn; [auto|apply app_nil_r|congruence].
Qed.
Print Assumptions C144_in_rows.
(** A footer puts an empty cell before its cells. *)
Theorem C144_footer_refuted : exists ns, forall e inc, exists st',
  eval e inc (Call [] (Name (lit "table")) (map (pair None) ns)) start = Done (VContent (html [] [[lit "a"]; [[]]; [lit "b"]])) st' /\
  ns = [Verbatim (lit "a"); Call [] (Field (lit "table") (lit "footer")) [(None, Verbatim (lit "b"))]].
Proof. eexists. intros. eexists. split; [|reflexivity]. vm_compute. reflexivity. Qed.
Print Assumptions C144_footer_refuted.
(** Conversion panics only on a table without columns. *)
Theorem C144_total_partial : forall e inc n st,
  everywhere (fun n => good_tables n /\ no_include n) n -> eval e inc n st <> Panicked /\ eval e inc n st <> Endless.
Proof.
  intros e inc n st H. assert (K : ok any False False (eval e inc n)).
  { apply (any_ok False False e inc (fun n => good_tables n /\ no_include n)); [|right|]; [intros t p (_ & [])|tauto|auto]. }
  specialize (K st). destruct (eval e inc n st); try contradiction; split; discriminate.
Qed.
Print Assumptions C144_total_partial.
Theorem C144_total_refuted : exists c1 c2 : node, forall e inc st,
  eval e inc (Call [] (Name (lit "table")) [(Some (lit "columns"), c1); (None, Verbatim (lit "a"))]) st = Panicked /\ c1 = IntLit 0 /\
  eval e inc (Call [] (Name (lit "table")) [(Some (lit "columns"), c2)]) st = Panicked /\ c2 = ArrayLit 0.
Proof. exists (IntLit 0), (ArrayLit 0). intros. repeat split. Qed.
Print Assumptions C144_total_refuted.
Example C144_nonvacuous :
  let ns := [Call [] (Field (lit "table") (lit "header")) (map (pair None) [Verbatim (lit "h")]); Verbatim (lit "a"); Strong (Verbatim (lit "b")); Verbatim (lit "c")] in
  gathers (eval env0 no_files) (lit "table") ns start [lit "h"] [lit "a"; lit "**b**"; lit "c"] start /\
  in_rows 2 [lit "a"; lit "**b**"; lit "c"] [[lit "a"; lit "**b**"]; [lit "c"]] /\
  everywhere (fun n => good_tables n /\ no_include n) (Call [] (Name (lit "table")) ((Some (lit "columns"), IntLit 2) :: map (pair None) ns)).
Proof.
  split; [|split].
  - apply (gathers_header _ _ [] [Verbatim (lit "h")] _ start [lit "h"] start [] _ start).
    + apply (evals_cons _ [] start (VContent (lit "h")) start [] start); [reflexivity|constructor].
    + apply (gathers_cell _ _ _ _ start (VContent (lit "a")) start); [intros []|reflexivity|].
      apply (gathers_cell _ _ _ _ start (VContent (lit "**b**")) start); [intros []|reflexivity|].
      apply (gathers_cell _ _ _ _ start (VContent (lit "c")) start); [intros []|reflexivity|]. constructor.
  - apply (rows_more 2 [lit "a"; lit "**b**"] [lit "c"] [[lit "c"]]); [reflexivity|discriminate|]. constructor; [discriminate|cbn; lia].
  - cbn. repeat split; auto. intros _. unfold columns_ok. cbn. intros k x H. injection H as <- <-. lia.
Qed.

(** * C145 *)

(** The code that a context is compiled with is the code of the document before it. *)
Theorem C145_code_partial : forall e inc ps t th svg,
  remove_html e = false -> color_theme e = Some th -> assets e = None ->
  compile e (concat (map code_of ps) ++ preamble ++ lit "#{" ++ t ++ lit "}") th = inl svg ->
  exists st', eval e inc (Seq (flat_map nodes_of ps ++ [HashMark; Contextual t])) start =
    Done (VContent (concat (map (fun p => match p with Words w => w | _ => [] end) ps) ++
      lit "<p align=""center""><img alt=""typst-block"" src=""data:image/svg+xml;base64," ++ base64 e svg ++ lit """ /></p>")) st' /\ prepend st' = concat (map code_of ps).
Proof.
  intros e inc ps t th svg Hr Hc Ha Hs. cbn [eval]. rewrite map_app. unfold bind at 1. rewrite reduce_app. unfold bind at 1. rewrite parts_kept. cbn [start depth prepend number files app].
  unfold bind at 1. cbn [map reduce]. unfold bind at 1. cbn [eval]. unfold keep, bind at 1, ret at 1. cbn [depth prepend number files]. unfold bind at 1, bind at 1. unfold contextual at 1. rewrite Hr.
  cbn [depth prepend number files]. rewrite trim_code. unfold render, render_code, render_inner, with_data, wrap, bind, write, ret. rewrite Hc, Ha. unfold paragraph, img.
  destruct (sources e); rewrite Hs; cbn [show]; (eexists; split; [apply (f_equal2 (@Done value)); [|reflexivity]; f_equal; f_equal; cbn [app]; rewrite app_nil_r, <- !app_assoc; reflexivity|reflexivity]).
Qed.
Print Assumptions C145_code_partial.
(** The hash of a call with content stays, and the code after it is broken. *)
Theorem C145_hash_refuted : exists ns, forall e inc, exists v st',
  eval e inc (Seq ns) start = Done v st' /\ prepend st' = lit "##let a = 1
" /\
  ns = [HashMark; Call [] (Name (lit "strike")) [(None, Verbatim (lit "x"))]; Verbatim (lit " "); HashMark; Silent (lit "let a = 1")].
Proof. eexists. intros. do 2 eexists. split; [|split; [|reflexivity]]; reflexivity. Qed.
Print Assumptions C145_hash_refuted.
Example C145_nonvacuous :
  let ps := [Code (lit "let a = 1"); Words (lit "text "); Code (lit "let b = 2")] in
  concat (map code_of ps) = lit "#let a = 1
#let b = 2
" /\
  compile env_one (concat (map code_of ps) ++ preamble ++ lit "#{" ++ lit "context a" ++ lit "}") Dark = inl (lit "#let a = 1
#let b = 2
" ++ preamble ++ lit "#{context a}").
Proof. split; reflexivity. Qed.

(** * C146 *)

(** Without includes and examples every file is written once, with a new number. *)
Theorem C146_own_partial : forall e inc n st v st',
  docs_lib e = false -> color_theme e = None \/ assets e = None -> everywhere no_include n -> eval e inc n st = Done v st' ->
  exists new, files st' = files st ++ new /\ NoDup (map fst new) /\ forall f, In f (map fst new) -> number st < number_of f <= number st'.
Proof.
  intros e inc n st v st' Hd Hc Hn E. pose proof (eval_own e inc n Hd Hc Hn st) as H. rewrite E in H. destruct H as (_ & new & F & A & D). exists new. split; [auto|]. split; [auto|].
  intros f Hf. apply in_map_iff in Hf. destruct Hf as (x & <- & Hx). rewrite Forall_forall in A. apply A; auto.
Qed.
Print Assumptions C146_own_partial.
(** All images are what the compiler gave for their theme, in included files too. *)
Theorem C146_images_partial : forall k e w p st t st',
  color_theme e = None \/ assets e = None -> convert k e w p st = Done t st' ->
  exists new, files st' = files st ++ new /\ forall n th c, In (Svg n th, c) new -> exists code, compile e code th = inl c.
Proof. intros k e w p st t st' Hc E. pose proof (convert_compiled e w Hc k p st) as H. rewrite E in H. exact H. Qed.
Print Assumptions C146_images_partial.
(** The images of an equation: the files and the paths that name them. *)
Theorem C146_equation : forall e inc b t st dir dark light,
  remove_html e = false -> color_theme e = None -> assets e = Some dir -> sources e = None ->
  compile e (preamble ++ lit "#{" ++ t ++ lit "}") Dark = inl dark -> compile e (preamble ++ lit "#{" ++ t ++ lit "}") Light = inl light ->
  exists pre mid post,
  eval e inc (Equation b t) st =
  Done (VContent (pre ++ dir ++ lit "/" ++ dec (S (number st)) ++ lit "_Dark.svg" ++ mid ++ dir ++ lit "/" ++ dec (S (number st)) ++ lit "_Light.svg" ++ post))
    {| depth := depth st; prepend := prepend st; number := S (number st);
       files := files st ++ [(Svg (S (number st)) Dark, dark); (Svg (S (number st)) Light, light)] |}.
Proof.
  intros e inc b t st dir dark light Hr Hc Ha Hs Hd Hl.
  exists ((if b then lit "<p align=""center"">" else []) ++ lit "<picture><source media=""(prefers-color-scheme: dark)"" srcset=""").
  exists (lit """>" ++ lit "<img" ++ (if b then [] else lit " style=""vertical-align: -0.35em""") ++ lit " alt=""typst-block"" src=""").
  exists (lit """ " ++ lit "/>" ++ lit "</picture>" ++ (if b then lit "</p>" else [])).
  cbn [eval]. rewrite Hr. unfold render, render_code, render_inner, with_data, wrap, bind, write, ret, linked, picture, img, paragraph. rewrite Hs, Hc, Ha. cbn [number files depth prepend app].
  rewrite Hd. cbn [number files depth prepend app]. rewrite Hl. cbn [number files depth prepend path_of theme_name].
  apply (f_equal2 (@Done value)); [|rewrite <- ?app_assoc; reflexivity]. f_equal. destruct b; cbn [negb app]; rewrite <- ?app_assoc; reflexivity.
Qed.
Print Assumptions C146_equation.
(** An included file begins with the numbers of the file that includes it; what is written last stays. *)
Theorem C146_include_refuted : exists (w : world) k,
  exists t st', convert k (env_files None false) w (lit "main") start = Done t st' /\ ~ NoDup (map fst (files st')) /\ number st' = 1.
Proof.
  exists (fun p => if text_eqb p (lit "main") then Some (Seq [Include [] (lit "part"); Equation true (lit "$b$")])
                   else Some (Equation true (lit "$a$"))), 2.
  do 2 eexists. split; [vm_compute; reflexivity|]. split; [|reflexivity]. intros H. cbn in H. inversion H as [|x l Hx _]; subst. apply Hx. cbn. tauto.
Qed.
Print Assumptions C146_include_refuted.
(** Two examples write the same files. *)
Theorem C146_example_refuted : exists n v st', eval (env_files None true) no_files n start = Done v st' /\ ~ NoDup (map fst (files st')).
Proof.
  exists (let x c := Call [] (Name (lit "example")) [(None, Raw None true [] [lit c])] in Seq [x "a"%string; x "b"%string]). do 2 eexists. split; [vm_compute; reflexivity|].
  intros H. cbn in H. inversion H as [|x l Hx _]; subst. apply Hx. cbn. tauto.
Qed.
Print Assumptions C146_example_refuted.
(** With one theme the file of an image in the end holds its own path. *)
Theorem C146_theme_refuted : exists n v st', eval (env_files (Some Dark) false) no_files n start = Done v st' /\
  In (Svg 1 Dark, lit "svg") (files st') /\ last (files st') (Typ 0, []) = (Svg 1 Dark, lit "a/1_Dark.svg").
Proof. exists (Equation true (lit "$a$")). do 2 eexists. split; [vm_compute; reflexivity|]. split; [cbn; tauto|reflexivity]. Qed.
Print Assumptions C146_theme_refuted.
Example C146_nonvacuous :
  let n := Seq [Equation true (lit "$a$"); ListItem (Equation false (lit "$b$"))] in
  everywhere no_include n /\ docs_lib (env_files None false) = false /\
  exists v st', eval (env_files None false) no_files n start = Done v st' /\
    map fst (files st') = [Typ 1; Svg 1 Dark; Svg 1 Light; Typ 2; Svg 2 Dark; Svg 2 Light] /\ number st' = 2.
Proof. split; [cbn; tauto|]. split; [reflexivity|]. do 2 eexists. split; [vm_compute; reflexivity|]. split; reflexivity. Qed.

(** * C147 *)

(** Files that include only files of lower rank are converted in the end. *)
Theorem C147_ends_partial : forall e w rank k p st,
  (forall p n, w p = Some n -> everywhere (includes_below rank (rank p)) n) -> rank p < k -> convert k e w p st <> Endless.
Proof. intros e w rank k p st Hw Hk E. pose proof (convert_ends e w rank Hw k p Hk st) as H. rewrite E in H. exact H. Qed.
Print Assumptions C147_ends_partial.
(** A file that includes itself is not. *)
Theorem C147_cycle_refuted : exists (w : world) p, forall k e st, convert k e w p st = Endless.
Proof.
  exists (fun _ => Some (Include [] [])), []. induction k as [|k IH]; intros e st; [reflexivity|]. cbn [convert]. unfold as_content, bind. cbn [eval]. unfold included. rewrite IH. reflexivity.
Qed.
Print Assumptions C147_cycle_refuted.
(** The marks of a list item name its depth, which is as before afterwards. *)
Theorem C147_depth : forall e inc b st v st',
  annotate e = true -> eval e inc (ListItem b) st = Done v st' ->
  depth st' = depth st /\
  exists w st1, eval e inc b {| depth := S (depth st); prepend := prepend st; number := number st; files := files st |} = Done w st1 /\
  v = VContent (lit "- <!-- typlite:begin:list-item " ++ dec (depth st) ++ lit " -->" ++ show w ++ lit "<!-- typlite:end:list-item " ++ dec (depth st) ++ lit " -->").
Proof.
  intros e inc b st v st' Ha E. split; [pose proof (eval_deep e inc (ListItem b) st) as H; rewrite E in H; exact H|].
  cbn [eval] in E. unfold list_item in E. rewrite Ha in E. set (s1 := {| depth := S (depth st); prepend := prepend st; number := number st; files := files st |}) in *.
  pose proof (eval_deep e inc b s1) as H. cbv zeta in E. destruct (eval e inc b s1) as [w s2| | |] eqn:Eb; try discriminate. exists w, s2. split; [auto|]. unfold deep in H. injection E as <- _. rewrite H. reflexivity.
Qed.
Print Assumptions C147_depth.
(** What a file includes does not change the depth, the kept code or the numbers of the file. *)
Theorem C147_include : forall e inc t p st v st',
  eval e inc (Include t p) st = Done v st' -> depth st' = depth st /\ prepend st' = prepend st /\ number st' = number st.
Proof. intros e inc t p st v st' E. cbn [eval] in E. unfold included in E. destruct (inc p st); try discriminate. injection E as _ <-. auto. Qed.
Print Assumptions C147_include.
Example C147_nonvacuous :
  let w : world := fun p => if text_eqb p (lit "a") then Some (Seq [Verbatim (lit "x"); Include [] (lit "b")]) else if text_eqb p (lit "b") then Some (ListItem (Verbatim (lit "y"))) else None in
  let rank p := if text_eqb p (lit "a") then 1 else 0 in
  (forall p n, w p = Some n -> everywhere (includes_below rank (rank p)) n) /\
  exists st', convert 2 (env_files None false) w (lit "a") start = Done (lit "x- <!-- typlite:begin:list-item 0 -->y<!-- typlite:end:list-item 0 -->") st'.
Proof.
  split; [|eexists; vm_compute; reflexivity]. intros p n. cbv beta zeta. destruct (text_eqb p (lit "a")).
  - intros E. injection E as <-. cbn [everywhere includes_below]. change (text_eqb (lit "b") (lit "a")) with false. cbn. repeat split; auto.
  - destruct (text_eqb p (lit "b")); [|discriminate]. intros E. injection E as <-. cbn. auto.
Qed.

(** * C148 *)

(** A document is converted piece by piece. *)
Theorem C148_pieces : forall e inc l1 l2 st t1 st1 t2 st2,
  eval e inc (Seq l1) st = Done (VContent t1) st1 -> eval e inc (Seq l2) st1 = Done (VContent t2) st2 ->
  eval e inc (Seq (l1 ++ l2)) st = Done (VContent (t1 ++ t2)) st2.
Proof.
  intros e inc l1 l2 st t1 st1 t2 st2 H1 H2. cbn [eval] in *. rewrite map_app. unfold bind in *. rewrite reduce_app. unfold bind. destruct (reduce (map (eval e inc) l1) st) as [x s1| | |]; try discriminate. unfold ret in *. injection H1 as <- <-.
  destruct (reduce (map (eval e inc) l2) s1) as [y s2| | |]; try discriminate. injection H2 as <- <-. reflexivity.
Qed.
Print Assumptions C148_pieces.
(** And only so. *)
Theorem C148_pieces_only : forall e inc l1 l2 st v st2,
  eval e inc (Seq (l1 ++ l2)) st = Done v st2 ->
  exists t1 st1 t2, eval e inc (Seq l1) st = Done (VContent t1) st1 /\ eval e inc (Seq l2) st1 = Done (VContent t2) st2 /\ v = VContent (t1 ++ t2).
Proof.
  intros e inc l1 l2 st v st2 H. cbn [eval] in *. rewrite map_app in H. unfold bind in *. rewrite reduce_app in H. unfold bind, ret in *. destruct (reduce (map (eval e inc) l1) st) as [x s1| | |] eqn:E1; try discriminate.
  destruct (reduce (map (eval e inc) l2) s1) as [y s2| | |] eqn:E2; try discriminate. injection H as <- <-. exists x, s1, y. split; [auto|]. split; [|auto]. rewrite E2. auto.
Qed.
Print Assumptions C148_pieces_only.
(** Marks of markup, around what the body is converted to. *)
Theorem C148_marks : forall e inc b st v st', eval e inc b st = Done v st' ->
  eval e inc (Strong b) st = Done (VContent (lit "**" ++ show v ++ lit "**")) st' /\
  eval e inc (Emph b) st = Done (VContent (lit "_" ++ show v ++ lit "_")) st' /\
  (forall k, eval e inc (Heading k b) st = Done (VContent (repeat 35%N k ++ lit " " ++ show v)) st') /\
  (forall k, eval e inc (EnumItem (Some k) b) st = Done (VContent (DigModel.print_num 10 k ++ lit ". " ++ show v)) st') /\
  eval e inc (EnumItem None b) st = Done (VContent (lit "1. " ++ show v)) st' /\
  (annotate e = false -> eval e inc (ListItem b) st = Done (VContent (lit "- " ++ show v)) st') /\
  (forall t, eval e inc (Call t (Name (lit "strike")) [(None, b)]) st = Done (VContent (lit "~~" ++ show v ++ lit "~~")) st') /\
  (forall t dest, eval e inc (Call t (Name (lit "link")) [(None, StrLit dest); (None, b)]) st = Done (VContent (lit "[" ++ show v ++ lit "](" ++ dest ++ lit ")")) st') /\
  (forall t t' a, eval e inc (Call t (Name (lit "md-alter")) [(None, a); (None, Closure t' b)]) st = Done (VContent (show v)) st').
Proof.
  intros e inc b st v st' E.
  split; [cbn [eval]; unfold bind; rewrite E; reflexivity|]. split; [cbn [eval]; unfold bind; rewrite E; reflexivity|]. split; [intros k; cbn [eval]; unfold bind; rewrite E; reflexivity|].
  split; [intros k; cbn [eval]; unfold bind; rewrite E; reflexivity|]. split; [cbn [eval]; unfold bind; rewrite E; reflexivity|].
  split; [intros Ha; cbn [eval]; unfold list_item; rewrite Ha; unfold bind; rewrite E; reflexivity|].
  split; [|split].
  - intros t. rewrite eval_call. unfold kept, bind at 1. assert (L : library e (lit "strike") (map (argument e inc) [(None, b)]) st = Done (VContent (lit "~~" ++ show v ++ lit "~~")) st').
    { change (bind (as_content (eval e inc b)) (fun t => ret (VContent (lit "~~" ++ t ++ lit "~~"))) st = Done (VContent (lit "~~" ++ show v ++ lit "~~")) st'). unfold bind, as_content, bind. rewrite E. reflexivity. }
    rewrite L. reflexivity.
  - intros t dest. rewrite eval_call. unfold kept, bind at 1. assert (L : library e (lit "link") (map (argument e inc) [(None, StrLit dest); (None, b)]) st = Done (VContent (lit "[" ++ show v ++ lit "](" ++ dest ++ lit ")")) st').
    { change (bind (as_content (eval e inc b)) (fun t => ret (VContent (lit "[" ++ t ++ lit "](" ++ dest ++ lit ")"))) st = Done (VContent (lit "[" ++ show v ++ lit "](" ++ dest ++ lit ")")) st'). unfold bind, as_content, bind. rewrite E. reflexivity. }
    rewrite L. reflexivity.
  - intros t t' a. rewrite eval_call. unfold kept, bind at 1. assert (L : library e (lit "md-alter") (map (argument e inc) [(None, a); (None, Closure t' b)]) st = Done (VContent (show v)) st').
    { change (bind (as_content (eval e inc b)) (fun t => ret (VContent t)) st = Done (VContent (show v)) st'). unfold bind, as_content, bind. rewrite E. reflexivity. }
    rewrite L. reflexivity.
Qed.
Print Assumptions C148_marks.
(** An example shows and compiles the lines it should. *)
Theorem C148_example : forall e inc t lang block x ls ds cs st,
  docs_lib e = true -> chosen shown_as (begins (lit ">>>")) ls ds -> chosen compiled_as (begins (lit "<<< ")) ls cs ->
  let name := match lang with Some l => l | None => lit "typ" end in
  let head := lit "```" ++ name ++ [10%N] ++ each_line ds ++ [10%N] ++ lit "```" ++ [10%N] in
  (remove_html e = true -> eval e inc (Call t (Name (lit "example")) [(None, Raw lang block x ls)]) st = Done (VContent head) st) /\
  (forall th svg, remove_html e = false -> color_theme e = Some th -> assets e = None ->
    compile e (preamble ++ (if text_eqb name (lit "typc") then lit "#{" ++ each_line cs ++ lit "}" else lit "#[" ++ each_line cs ++ lit "]")) th = inl svg ->
    eval e inc (Call t (Name (lit "example")) [(None, Raw lang block x ls)]) st =
    Done (VContent (head ++ lit "<p align=""left""><img alt=""typst-block"" src=""data:image/svg+xml;base64," ++ base64 e svg ++ lit """ width=""500px""/></p>")) st).
Proof.
  intros e inc t lang block x ls ds cs st Hd Hs Hc name head. apply shown_fun in Hs. apply compiled_fun in Hc.
  set (l := map (argument e inc) [(None, Raw lang block x ls)]).
  assert (L : library e (lit "example") l = example_fn e l).
  { assert (L' : library e (lit "example") l = if docs_lib e && true then example_fn e l else fail) by reflexivity. rewrite L', Hd. auto. }
  rewrite eval_call. fold l. rewrite L. unfold kept, bind at 1 2.
  assert (F : example_fn e l = (let '(display, code) := split_example ls in
          let s := lit "```" ++ name ++ [10%N] ++ display ++ [10%N] ++ lit "```" ++ [10%N] in
          if remove_html e then ret (VContent s)
          else bind (render_code e [] code (negb (text_eqb name (lit "typc"))) (lit "left") (lit "width=""500px""") false)
                    (fun v => ret (VContent (s ++ show v))))) by reflexivity.
  rewrite F. destruct (split_example ls) as [d c]. cbn [fst snd] in Hs, Hc. subst d c. split.
  - intros Hr. rewrite Hr. reflexivity.
  - intros th svg Hr Ht Ha E. rewrite Hr. unfold bind at 1, render_code, render_inner, with_data. rewrite Ht, Ha. cbv zeta. unfold wrap. cbn [app].
    destruct (text_eqb name (lit "typc")); cbn [negb]; rewrite E; unfold bind, ret; cbn [show paragraph]; (do 2 f_equal; fold head; f_equal; unfold paragraph, img; rewrite <- !app_assoc; reflexivity).
Qed.
Print Assumptions C148_example.
(** Every example has such lines. *)
Theorem C148_example_lines : forall ls, exists ds cs, chosen shown_as (begins (lit ">>>")) ls ds /\ chosen compiled_as (begins (lit "<<< ")) ls cs.
Proof. intros ls. destruct (split_ok ls) as (ds & cs & _ & H). eauto. Qed.
Print Assumptions C148_example_lines.
Example C148_nonvacuous :
  eval env_plain no_files (Call [] (Name (lit "example")) [(None, Raw None true [] [lit ">>>#set text(red)"; lit "<<< #shown"; lit "both"])]) start =
    Done (VContent (lit "```typ
#shown
both

```
")) start /\
  eval env0 no_files (Seq ([Verbatim (lit "a ")] ++ [Strong (Verbatim (lit "b"))])) start = Done (VContent (lit "a **b**")) start.
Proof. split; vm_compute; reflexivity. Qed.
