(** What is expected of the script (C162, C163). *)
From Coq Require Import String Ascii.
From Coq Require Import List Arith NArith ZArith Bool.
From Verif Require Import DigModel PageModel PageSpec PathModel ScrModel.
Import ListNotations.
Local Open Scope N_scope.

(** * A shell: the commands of a script and their words *)
Inductive mode := Plain | Single | Double | Comment.
(** Characters that stand for themselves outside of quotes. *)
Definition ordinary (c : chr) : bool :=
  ((48 <=? c) && (c <=? 57)) || ((65 <=? c) && (c <=? 90)) || ((97 <=? c) && (c <=? 122))
  || existsb (N.eqb c) (lit "-_./,:+@%").
(** Characters that do not stand for themselves between double quotes. *)
Definition active (c : chr) : bool := existsb (N.eqb c) (0 :: lit "$`\!").
Definition add (w : option text) (c : chr) : option text := Some (match w with Some w => w ++ [c] | None => [c] end).
Definition started (w : option text) : option text := Some (match w with Some w => w | None => [] end).
Definition close (w : option text) (ws : list text) : list text := match w with Some w => ws ++ [w] | None => ws end.
Definition done (ws : list text) (r : option (list (list text))) : option (list (list text)) :=
  match ws with [] => r | _ => option_map (cons ws) r end.
(** [w] is the word that is being read and [ws] are the words before it.  [None]: something else than
    commands made of words, such as an expansion, a redirection or an assignment, or a quote left open. *)
Fixpoint sh (m : mode) (w : option text) (ws : list text) (s : text) : option (list (list text)) :=
  match s with
  | [] => match m with Single | Double => None | _ => done (close w ws) (Some []) end
  | c :: r =>
      match m with
      | Plain =>
          if c =? 10 then done (close w ws) (sh Plain None [] r)
          else if (c =? 32) || (c =? 9) then sh Plain None (close w ws) r
          else if c =? 39 then sh Single (started w) ws r
          else if c =? 34 then sh Double (started w) ws r
          else if c =? 35 then match w with None => sh Comment None ws r | Some _ => sh Plain (add w c) ws r end
          else if c =? 61 then match ws with [] => None | _ => sh Plain (add w c) ws r end
          else if ordinary c then sh Plain (add w c) ws r
          else None
      | Single => if c =? 39 then sh Plain w ws r else if c =? 0 then None else sh Single (add w c) ws r
      | Double => if c =? 34 then sh Plain w ws r else if active c then None else sh Double (add w c) ws r
      | Comment => if c =? 10 then done (close w ws) (sh Plain None [] r) else sh Comment w ws r
      end
  end.
Definition commands (s : text) : option (list (list text)) := sh Plain None [] s.

(** * The words that a task asks for *)
Definition path_word (cwd : path) (r : resource) : list text :=
  if text_eqb (fst r) (lit "file") then [unix_slash (to_rel_path cwd (snd r))] else [].
Definition named (cwd : path) (name : string) (r : resource) : list text := lit name :: path_word cwd r.
Definition option_words {A} (f : A -> list text) (x : option A) : list text := match x with Some x => f x | None => [] end.
Definition wanted_change (c : change) : list text :=
  match c with
  | Pages rs => flat_map (fun r => [lit "--pages"; print_pages r]) rs
  | Pretty _ => [lit "--pretty"]
  | _ => []
  end.
Definition wanted_format (j : job) : list text :=
  match j with
  | JPdf _ ss ts => [lit "--format=pdf"] ++ flat_map (fun s => [lit "--pdf-standard"; standard_name s]) ss
                    ++ option_words (fun z => [lit "--creation-timestamp"; print_int z]) ts
  | JSvg _ => [lit "--format=svg"] | JSvgHtml _ => [lit "--format=svg_html"] | JMd _ => [lit "--format=md"]
  | JPng _ _ _ => [lit "--format=png"] | JText _ => [lit "--format=txt"] | JHtml _ => [lit "--format=html"]
  | JPreview _ | JQuery _ _ _ => []
  end.
Definition wanted (cwd : path) (d : input) (t : task) (e : export) : list text :=
  [lit "tinymist"; lit "compile"; lit "--save-lock"; lit "--task"; t_id t] ++ path_word cwd (i_main d)
  ++ option_words (named cwd "--root") (i_root d)
  ++ map (fun kv => lit "--input=" ++ fst kv ++ [61] ++ snd kv) (i_inputs d)
  ++ flat_map (named cwd "--font-path") (i_fonts d)
  ++ (if i_system d then [] else [lit "--ignore-system-fonts"])
  ++ option_words (named cwd "--package-path") (i_pkg d)
  ++ option_words (named cwd "--package-cache-path") (i_cache d)
  ++ option_words (fun p => [lit "--output"; p]) (e_output e)
  ++ flat_map wanted_change (e_changes e)
  ++ wanted_format (t_job t).
(** What a task exports, if it does. *)
Inductive exports : job -> export -> Prop :=
| X_pdf e a b : exports (JPdf e a b) e | X_png e a b : exports (JPng e a b) e | X_svg e : exports (JSvg e) e | X_html e : exports (JHtml e) e
| X_svghtml e : exports (JSvgHtml e) e | X_md e : exports (JMd e) e | X_text e : exports (JText e) e | X_query e a b : exports (JQuery e a b) e.
(** One command for each task that exports a document of the lock file. *)
Definition wanted_task (cwd : path) (l : lock) (t : task) : list (list text) :=
  match get_document l (t_doc t), t_job t with
  | None, _ | _, JPreview _ => []
  | Some d, (JPdf e _ _ | JPng e _ _ | JSvg e | JHtml e | JSvgHtml e | JMd e | JText e | JQuery e _ _) => [wanted cwd d t e]
  end.
(** A text that can be an argument of a process, and one that stays on its line. *)
Definition passable (s : text) : Prop := ~ In 0 s.
Definition on_line (s : text) : Prop := ~ In 10 s.
Definition export_ok (e : export) : Prop := forall p, e_output e = Some p -> passable p.
Definition path_passable (cwd : path) (r : resource) : Prop := passable (unix_slash (to_rel_path cwd (snd r))).
Definition input_ok (cwd : path) (d : input) : Prop :=
  path_passable cwd (i_main d) /\ (forall r, i_root d = Some r \/ In r (i_fonts d) \/ i_pkg d = Some r \/ i_cache d = Some r -> path_passable cwd r)
  /\ (forall k v, In (k, v) (i_inputs d) -> passable k /\ passable v).
Definition task_ok (cwd : path) (l : lock) (t : task) : Prop :=
  passable (t_id t) /\ on_line (t_id t) /\ on_line (t_doc t) /\ on_line (extension (t_job t))
  /\ (forall d, get_document l (t_doc t) = Some d -> input_ok cwd d)
  /\ (forall e, exports (t_job t) e -> export_ok e).

(** * Tasks that the command of the script saves again as they are *)
(** Not like an option. *)
Definition calm (s : text) : Prop := forall r, s = 45 :: r -> r = [].
(** A relative path in its usual writing. *)
Definition usual (r : resource) : Prop :=
  fst r = lit "file" /\ is_abs (components (snd r)) = false /\ unix_slash (components (snd r)) = snd r /\ calm (snd r).
Definition repeatable_input (d : input) : Prop :=
  i_id d = print_resource (i_main d) /\ usual (i_main d) /\ i_inputs d = []
  /\ (forall r, i_root d = Some r \/ i_pkg d = Some r \/ i_cache d = Some r -> usual r)
  /\ (forall r, In r (i_fonts d) -> usual r /\ ~ In 58 (snd r)).
Definition repeatable_pages (cs : list change) : Prop :=
  cs = [] \/ exists rs, cs = [Pages rs] /\ rs <> [] /\ Forall (fun p => proper p /\ fst p <> None) rs.
Definition repeatable_job (j : job) : Prop :=
  exists cs, repeatable_pages cs /\
  let e := mkExport Never None cs in
  (exists ss, j = JPdf e ss None) \/ j = JPng e 144 None \/ j = JSvg e.
Definition repeatable (d : input) (t : task) : Prop :=
  repeatable_input d /\ t_doc t = i_id d /\ calm (t_id t) /\ repeatable_job (t_job t).
