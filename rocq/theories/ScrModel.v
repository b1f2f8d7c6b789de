(** The script that builds the tasks of a lock file, crates/tinymist/src/tool/project.rs:115-363,
    and the arguments of the command that it runs, crates/tinymist-project/src/args.rs,
    crates/tinymist-world/src/args.rs.
    Paths are those of [PathModel], page ranges and resource paths those of [PageModel].
    The reader of arguments is modelled after clap 4: long options with or without an equals
    sign, values that may not look like options, options that may not be repeated; the
    variables of the environment are taken as unset, and of the short options there is [-f]. *)
From Coq Require Import String Ascii.
From Coq Require Import List Arith NArith ZArith Bool.
From Verif Require Import DigModel PageModel PathModel.
Import ListNotations.
Local Open Scope N_scope.

(** A text, crates/tinymist/src/tool/project.rs:188. *)
Definition text := list chr.
(** A literal, crates/tinymist/src/tool/project.rs:239. *)
Definition lit (s : string) : text := map N_of_ascii (list_ascii_of_string s).

(** * Lock files *)
(** crates/tinymist-world/src/args.rs:233-246 [TaskWhen]. *)
Inductive when := Never | OnSave | OnType | OnTitle.
(** crates/tinymist-world/src/args.rs:287-301 [PdfStandard]. *)
Inductive standard := V17 | A2b | A3b.
(** crates/tinymist-task/src/model.rs:177-201 [ExportTransform]. *)
Inductive change := Pages (ranges : list pages) | Merge (gap : option text) | Script (script : option text) | Pretty (script : option text).
(** crates/tinymist-task/src/model.rs:136-144 [ExportTask]. *)
Record export := mkExport { e_when : when; e_output : option text; e_changes : list change }.
(** crates/tinymist-task/src/model.rs:62-84 [ProjectTask]; of a query only what the script looks at. *)
Inductive job :=
| JPreview (w : when)
| JPdf (e : export) (standards : list standard) (timestamp : option Z)
| JPng (e : export) (ppi : N) (fill : option text)
| JSvg (e : export) | JHtml (e : export) | JSvgHtml (e : export) | JMd (e : export) | JText (e : export)
| JQuery (e : export) (format : text) (ext : option text).
(** crates/tinymist-task/src/model.rs:34-43 [ApplyProjectTask]. *)
Record task := mkTask { t_id : text; t_doc : text; t_job : job }.
(** crates/tinymist-project/src/model.rs:71-96 [ProjectInput]. *)
Record input := mkInput { i_id : text; i_root : option resource; i_main : resource; i_inputs : list (text * text);
  i_fonts : list resource; i_system : bool; i_pkg : option resource; i_cache : option resource }.
(** crates/tinymist-project/src/model.rs:53-66 [LockFile]; the routes play no part here. *)
Record lock := mkLock { l_docs : list input; l_tasks : list task }.
(** crates/tinymist-task/src/model.rs:102-114 [as_export]. *)
Definition as_export (j : job) : option export :=
  match j with
  | JPreview _ => None
  | JPdf e _ _ | JPng e _ _ | JSvg e | JHtml e | JSvgHtml e | JMd e | JText e | JQuery e _ _ => Some e
  end.
(** crates/tinymist-task/src/model.rs:117-130 [extension]. *)
Definition extension (j : job) : text :=
  match j with
  | JPdf _ _ _ => lit "pdf"
  | JPreview _ | JSvgHtml _ | JHtml _ => lit "html"
  | JMd _ => lit "md"
  | JText _ => lit "txt"
  | JSvg _ => lit "svg"
  | JPng _ _ _ => lit "png"
  | JQuery _ f x => match x with Some x => x | None => f end
  end.
(** crates/tinymist-project/src/lock.rs:20-22 [get_document]. *)
Definition get_document (l : lock) (id : text) : option input := find (fun d => text_eqb (i_id d) id) (l_docs l).
(** crates/tinymist-project/src/lock.rs:28-46: the first entry of the id is replaced, or a new one comes last. *)
Fixpoint put {A} (key : A -> text) (x : A) (l : list A) : list A :=
  match l with
  | [] => [x]
  | y :: r => if text_eqb (key y) (key x) then x :: r else y :: put key x r
  end.
(** crates/tinymist-project/src/lock.rs:28-36 [replace_document]. *)
Definition replace_document (d : input) (l : lock) : lock := mkLock (put i_id d (l_docs l)) (l_tasks l).
(** crates/tinymist-project/src/lock.rs:38-46 [replace_task]. *)
Definition replace_task (t : task) (l : lock) : lock := mkLock (l_docs l) (put t_id t (l_tasks l)).

(** * The script *)
(** project.rs:227 [quote_escape]: a quote becomes quote, double quote, quote, double quote, quote.
    crates/tinymist/src/tool/project.rs:227. *)
Definition quote_escape (s : text) : text := flat_map (fun c => if c =? 39 then [39; 34; 39; 34; 39] else [c]) s.
(** crates/tinymist/src/tool/project.rs:228 [quote]. *)
Definition quote (s : text) : text := [39] ++ quote_escape s ++ [39].
(** crates/tinymist/src/tool/project.rs:230-237 [path_of]; nothing is written for a path that is not a file. *)
Definition path_of (cwd : path) (r : resource) : text :=
  if text_eqb (fst r) (lit "file") then quote (unix_slash (to_rel_path cwd (snd r))) else [].
(** An option and its path, crates/tinymist/src/tool/project.rs:262-265,275-278,284-292. *)
Definition path_option (cwd : path) (name : string) (r : resource) : list text := [lit name; path_of cwd r].
(** [Display] of an [i64], crates/tinymist/src/tool/project.rs:328. *)
Definition print_int (z : Z) : text :=
  match z with Z0 => print_num 10 0 | Zpos p => print_num 10 (Npos p) | Zneg p => 45 :: print_num 10 (Npos p) end.
(** The names of standards, crates/tinymist-world/src/args.rs:290-300. *)
Definition standard_name (s : standard) : text := match s with V17 => lit "1.7" | A2b => lit "a-2b" | A3b => lit "a-3b" end.
(** As JSON, crates/tinymist/src/tool/project.rs:322. *)
Definition json (s : text) : text := [34] ++ s ++ [34].
(** The words of a change, crates/tinymist/src/tool/project.rs:299-313. *)
Definition change_words (c : change) : list text :=
  match c with
  | Pretty _ => [lit "--pretty"]
  | Pages rs => flat_map (fun r => [lit "--pages"; print_pages r]) rs
  | Merge _ | Script _ => []
  end.
(** The words of a format, crates/tinymist/src/tool/project.rs:315-349. *)
Definition format_words (j : job) : list text :=
  match j with
  | JPreview _ | JQuery _ _ _ => []
  | JPdf _ ss ts =>
      [lit "--format=pdf"] ++ flat_map (fun s => [lit "--pdf-standard"; json (standard_name s)]) ss
      ++ match ts with Some z => [lit "--creation-timestamp"; print_int z] | None => [] end
  | JSvg _ => [lit "--format=svg"]
  | JSvgHtml _ => [lit "--format=svg_html"]
  | JMd _ => [lit "--format=md"]
  | JPng _ _ _ => [lit "--format=png"]
  | JText _ => [lit "--format=txt"]
  | JHtml _ => [lit "--format=html"]
  end.
(** The words of an optional path, crates/tinymist/src/tool/project.rs:262-265,284-292. *)
Definition opt_path (cwd : path) (name : string) (r : option resource) : list text :=
  match r with Some r => path_option cwd name r | None => [] end.
(** The words of the command of a task, crates/tinymist/src/tool/project.rs:255-349. *)
Definition command (cwd : path) (d : input) (t : task) (e : export) : list text :=
  [lit "tinymist"; lit "compile"; lit "--save-lock"; lit "--task"; quote (t_id t); path_of cwd (i_main d)]
  ++ opt_path cwd "--root" (i_root d)
  ++ map (fun kv => lit "--input='" ++ quote_escape (fst kv) ++ [61] ++ quote_escape (snd kv) ++ [39]) (i_inputs d)
  ++ flat_map (path_option cwd "--font-path") (i_fonts d)
  ++ (if i_system d then [] else [lit "--ignore-system-fonts"])
  ++ opt_path cwd "--package-path" (i_pkg d)
  ++ opt_path cwd "--package-cache-path" (i_cache d)
  ++ match e_output e with Some p => [lit "--output"; quote p] | None => [] end
  ++ flat_map change_words (e_changes e)
  ++ format_words (t_job t).
(** [build], crates/tinymist/src/tool/project.rs:222-224. *)
Fixpoint build (ws : list text) : text :=
  match ws with [] => [] | [w] => w | w :: r => w ++ [32] ++ build r end.
(** The lines of a task, crates/tinymist/src/tool/project.rs:241-360. *)
Definition task_lines (cwd : path) (l : lock) (t : task) : text :=
  match get_document l (t_doc t), as_export (t_job t) with
  | Some d, Some e =>
      lit "# From " ++ t_doc t ++ lit " to " ++ t_id t ++ lit " (" ++ extension (t_job t) ++ lit ")" ++ [10]
      ++ build (command cwd d t e) ++ [10]
  | _, _ => []
  end.
(** crates/tinymist/src/tool/project.rs:42 [Shell]; only these three reach the writer of the script. *)
Inductive shell := Bash | Zsh | PowerShell.
(** crates/tinymist/src/tool/project.rs:190-199. *)
Definition header (s : shell) : text :=
  match s with
  | Bash => lit "#!/usr/bin/env bash" ++ [10; 10]
  | Zsh => lit "#!/usr/bin/env zsh" ++ [10; 10]
  | PowerShell => []
  end.
(** crates/tinymist/src/tool/project.rs:187-363 [shell_build_script]. *)
Definition script (s : shell) (cwd : path) (l : lock) : text := header s ++ flat_map (task_lines cwd l) (l_tasks l).

(** * The arguments of the command *)
(** The options with a value, crates/tinymist-project/src/args.rs:22-34,85-92,118-161,237-251,
    crates/tinymist-world/src/args.rs:19-52, crates/tinymist/src/tool/project.rs:33-34. *)
Inductive opt := OName | ORoot | OFont | OPkg | OCache | OTask | OWhen | OFormat | OPages | OStandard | OPpi | OLockfile.
(** The flags, crates/tinymist-world/src/args.rs:32, crates/tinymist/src/tool/project.rs:28. *)
Inductive flag := FIgnore | FSave.
(** The table of long options; see [opt] and [flag], crates/tinymist-project/src/args.rs:22-251. *)
Definition longs : list (text * (opt + flag)) :=
  [(lit "name", inl OName); (lit "root", inl ORoot); (lit "font-path", inl OFont); (lit "package-path", inl OPkg);
   (lit "package-cache-path", inl OCache); (lit "task", inl OTask); (lit "when", inl OWhen); (lit "format", inl OFormat);
   (lit "pages", inl OPages); (lit "pdf-standard", inl OStandard); (lit "ppi", inl OPpi); (lit "lockfile", inl OLockfile);
   (lit "ignore-system-fonts", inr FIgnore); (lit "save-lock", inr FSave)].
(** Looking up in a table of names; crates/tinymist-project/src/args.rs:118. *)
Fixpoint assoc {A} (s : text) (t : list (text * A)) : option A :=
  match t with [] => None | (k, x) :: r => if text_eqb k s then Some x else assoc s r end.
(** A name and the value after the first equals sign; clap, crates/tinymist-project/src/args.rs:118. *)
Fixpoint split_eq (s : text) : text * option text :=
  match s with
  | [] => ([], None)
  | c :: r => if c =? 61 then ([], Some r) else let (a, b) := split_eq r in (c :: a, b)
  end.
(** What looks like an option; clap, crates/tinymist-project/src/args.rs:118. *)
Definition dashed (s : text) : bool := match s with c :: _ :: _ => c =? 45 | _ => false end.
(** What an argument list is read as; clap, crates/tinymist-project/src/args.rs:118. *)
Inductive token := TVal (o : opt) (v : text) | TFlag (f : flag) | TPos (s : text).
(** See [tokens]; crates/tinymist-project/src/args.rs:118. *)
Definition tcons (t : token) (r : option (list token)) : option (list token) := option_map (cons t) r.
(** The long option of an argument: [None] if it is none; crates/tinymist-project/src/args.rs:118. *)
Definition as_long (s : text) : option text :=
  match s with a :: b :: c :: r => if (a =? 45) && (b =? 45) then Some (c :: r) else None | _ => None end.
(** The escape that ends the options; crates/tinymist-project/src/args.rs:118. *)
Definition is_escape (s : text) : bool := text_eqb s [45; 45].
(** The value in the short option of the format, crates/tinymist-project/src/args.rs:143. *)
Definition as_short (s : text) : option text :=
  match s with a :: b :: r => if (a =? 45) && (b =? 102) then Some r else None | _ => None end.
(** The loop over the arguments; [None] is an error (or a help text) and the process ends.
    crates/tinymist-project/src/args.rs:118. *)
Fixpoint tokens (args : list text) : option (list token) :=
  match args with
  | [] => Some []
  | a :: r =>
      if is_escape a then Some (map TPos r)
      else match as_long a with
      | Some body =>
          let (name, value) := split_eq body in
          match assoc name longs, value with
          | Some (inl o), Some v => tcons (TVal o v) (tokens r)
          | Some (inl o), None =>
              match r with
              | v :: r' => if dashed v then None else tcons (TVal o v) (tokens r')
              | [] => None
              end
          | Some (inr f), None => tcons (TFlag f) (tokens r)
          | _, _ => None
          end
      | None =>
          match as_short a with
          | Some (c :: v) => tcons (TVal OFormat (if c =? 61 then v else c :: v)) (tokens r)
          | Some [] => match r with
                       | v :: r' => if dashed v then None else tcons (TVal OFormat v) (tokens r')
                       | [] => None
                       end
          | None => if dashed a then None else tcons (TPos a) (tokens r)
          end
      end
  end.
(** Equality of options; clap, crates/tinymist-project/src/args.rs:118. *)
Definition opt_eqb (a b : opt) : bool :=
  match a, b with
  | OName, OName | ORoot, ORoot | OFont, OFont | OPkg, OPkg | OCache, OCache | OTask, OTask | OWhen, OWhen
  | OFormat, OFormat | OPages, OPages | OStandard, OStandard | OPpi, OPpi | OLockfile, OLockfile => true
  | _, _ => false
  end.
(** The values of an option, crates/tinymist-project/src/args.rs:118. *)
Definition vals (o : opt) (ts : list token) : list text :=
  flat_map (fun t => match t with TVal o' v => if opt_eqb o o' then [v] else [] | _ => [] end) ts.
(** How often a flag is given, crates/tinymist-project/src/args.rs:118. *)
Definition flags (f : flag) (ts : list token) : nat :=
  length (filter (fun t => match t, f with TFlag FIgnore, FIgnore | TFlag FSave, FSave => true | _, _ => false end) ts).
(** The positional arguments, crates/tinymist-project/src/args.rs:90,138. *)
Definition poss (ts : list token) : list text := flat_map (fun t => match t with TPos s => [s] | _ => [] end) ts.
(** An option that is given at most once; clap, crates/tinymist-project/src/args.rs:118. *)
Definition single (o : opt) (ts : list token) : option (option text) :=
  match vals o ts with [] => Some None | [v] => Some (Some v) | _ => None end.
(** The output formats, crates/tinymist-world/src/args.rs:259-269. *)
Inductive format := FPdf | FPng | FSvg | FHtml.
(** Their names, crates/tinymist-world/src/args.rs:259-269. *)
Definition formats : list (text * format) := [(lit "pdf", FPdf); (lit "png", FPng); (lit "svg", FSvg); (lit "html", FHtml)].
(** The names of times, crates/tinymist-world/src/args.rs:231-246. *)
Definition whens : list (text * when) :=
  [(lit "never", Never); (lit "onSave", OnSave); (lit "onType", OnType); (lit "onDocumentHasTitle", OnTitle)].
(** The names of standards, crates/tinymist-world/src/args.rs:287-301. *)
Definition standards : list (text * standard) := map (fun s => (standard_name s, s)) [V17; A2b; A3b].
(** Reading all of a list or none of it; clap, crates/tinymist-project/src/args.rs:118. *)
Fixpoint all {A B} (f : A -> option B) (l : list A) : option (list B) :=
  match l with
  | [] => Some []
  | x :: r => match f x, all f r with Some y, Some ys => Some (y :: ys) | _, _ => None end
  end.
(** Reading an optional value; clap, crates/tinymist-project/src/args.rs:118. *)
Definition read {A B} (f : A -> option B) (x : option A) : option (option B) :=
  match x with None => Some None | Some v => option_map Some (f v) end.
(** A path is not empty; clap, crates/tinymist-world/src/args.rs:29. *)
Definition read_path (s : text) : option text := match s with [] => None | _ => Some s end.
(** A page range, crates/tinymist-task/src/primitives.rs:185-215. *)
Definition read_pages (s : text) : option pages := match parse_pages s with inl p => Some p | inr _ => None end.
(** The resolution; only whole numbers are modelled.  crates/tinymist-project/src/args.rs:249-250. *)
Definition read_ppi (s : text) : option N := parse_num 10 max64 s.
(** See [read_ppi]: 144, crates/tinymist-project/src/args.rs:249. *)
Definition default_ppi : N := 144.
(** The arguments, crates/tinymist-project/src/args.rs:22-161, crates/tinymist/src/tool/project.rs:22-35. *)
Record cargs := mkArgs { a_name : option text; a_input : text; a_root : option text; a_fonts : list text; a_ignore : bool;
  a_pkg : option text; a_cache : option text; a_task : option text; a_when : option when; a_output : option text;
  a_format : option format; a_pages : option (list pages); a_standards : list standard; a_ppi : N;
  a_save : bool; a_lockfile : option text }.
(** Chaining of readers; clap, crates/tinymist-project/src/args.rs:118. *)
Definition bind {A B} (x : option A) (f : A -> option B) : option B := match x with Some a => f a | None => None end.
(** A flag may be given once; clap, crates/tinymist-world/src/args.rs:32. *)
Definition one (f : flag) (ts : list token) : option bool :=
  match flags f ts with O => Some false | S O => Some true | _ => None end.
(** The arguments of a list of tokens, crates/tinymist-project/src/args.rs:22-161. *)
Definition arguments (ts : list token) : option cargs :=
  bind (single OName ts) (fun name =>
  bind (single ORoot ts) (fun root =>
  bind (all read_path (flat_map (split 58) (vals OFont ts))) (fun fonts =>
  bind (one FIgnore ts) (fun ignore =>
  bind (bind (single OPkg ts) (read read_path)) (fun pkg =>
  bind (bind (single OCache ts) (read read_path)) (fun cache =>
  bind (single OTask ts) (fun task =>
  bind (bind (single OWhen ts) (read (fun s => assoc s whens))) (fun when =>
  bind (bind (single OFormat ts) (read (fun s => assoc s formats))) (fun format =>
  bind (all read_pages (flat_map (split 44) (vals OPages ts))) (fun ps =>
  bind (all (fun s => assoc s standards) (flat_map (split 44) (vals OStandard ts))) (fun ss =>
  bind (bind (single OPpi ts) (read read_ppi)) (fun ppi =>
  bind (one FSave ts) (fun save =>
  bind (bind (single OLockfile ts) (read read_path)) (fun lockfile =>
  let mk inp out := mkArgs name inp root fonts ignore pkg cache task when out format
    (match vals OPages ts with [] => None | _ => Some ps end) ss (match ppi with Some p => p | None => default_ppi end) save lockfile in
  match poss ts with
  | [i] => Some (mk i None)
  | [i; o] => Some (mk i (Some o))
  | _ => None
  end)))))))))))))).
(** The reading of a command line: crates/tinymist/src/args.rs:43; the first two words are the program and the command. *)
Definition parse (cmd : list text) : option cargs :=
  match cmd with
  | p :: c :: r => if text_eqb p (lit "tinymist") && text_eqb c (lit "compile") then bind (tokens r) arguments else None
  | _ => None
  end.

(** * What the command saves *)
(** [from_user_sys] as a resource path, crates/tinymist-task/src/primitives.rs:305-314. *)
Definition resource_of (cwd : path) (s : text) : option resource :=
  option_map (fun p => (lit "file", p)) (from_user_sys cwd (components s)).
(** crates/tinymist-project/src/args.rs:38-78,95-103 [to_input]; [None] is the panic of [from_user_sys]. *)
Definition to_input (cwd : path) (a : cargs) : option input :=
  bind (resource_of cwd (a_input a)) (fun main =>
  bind (read (resource_of cwd) (a_root a)) (fun root =>
  bind (all (resource_of cwd) (a_fonts a)) (fun fonts =>
  bind (read (resource_of cwd) (a_pkg a)) (fun pkg =>
  bind (read (resource_of cwd) (a_cache a)) (fun cache =>
  Some (mkInput (match a_name a with Some n => n | None => print_resource main end) root main [] fonts (negb (a_ignore a)) pkg cache)))))).
(** [eq_ignore_ascii_case], crates/tinymist-project/src/args.rs:186-189. *)
Definition lower (s : text) : text := map (fun c => if (65 <=? c) && (c <=? 90) then c + 32 else c) s.
(** The last component if it is a name ([Path::file_name]); crates/tinymist-project/src/args.rs:185. *)
Definition file_name (p : path) : option text :=
  match rev p with Nor n :: _ => Some n | _ => None end.
(** [Path::extension]: after the last dot that is not the first character; crates/tinymist-project/src/args.rs:185. *)
Fixpoint after_dot (s : text) : option text :=
  match s with
  | [] => None
  | c :: r => match after_dot r with Some x => Some x | None => if c =? 46 then Some r else None end
  end.
(** See [after_dot]; crates/tinymist-project/src/args.rs:185. *)
Definition path_extension (s : text) : option text :=
  match file_name (components s) with Some (_ :: r) => after_dot r | _ => None end.
(** The output format, crates/tinymist-project/src/args.rs:179-198; [None] is the error of line 190. *)
Definition output_format (a : cargs) : option format :=
  match a_format a with
  | Some f => Some f
  | None => match a_output a with
            | Some o => bind (path_extension o) (fun x => assoc (lower x) formats)
            | None => Some FPdf
            end
  end.
(** crates/tinymist-project/src/args.rs:175-234 [to_task]. *)
Definition to_task (doc : text) (a : cargs) : option task :=
  bind (output_format a) (fun f =>
  let w := match a_when a with Some w => w | None => Never end in
  let e := mkExport w None (match a_pages a with Some ps => [Pages ps] | None => [] end) in
  let j := match f with
           | FPdf => JPdf e (a_standards a) None
           | FPng => JPng e (a_ppi a) None
           | FSvg => JSvg e
           | FHtml => JSvg e
           end in
  Some (mkTask (match a_task a with Some n => n | None => doc end) doc j)).
(** crates/tinymist/src/tool/project.rs:115-136: what the command leaves of the lock file of the current
    directory; a lock file that is named is one of another directory or this one, and is not modelled. *)
Definition saves (a : cargs) : bool := a_save a || match a_lockfile a with Some _ => true | None => false end.
(** See [saves]: [None] is the end of the process before anything is saved; crates/tinymist/src/tool/project.rs:115-136. *)
Definition run (cwd : path) (l : lock) (cmd : list text) : option lock :=
  bind (parse cmd) (fun a =>
  bind (to_input cwd a) (fun d =>
  bind (to_task (i_id d) a) (fun t =>
  if saves a then Some (replace_task t (replace_document d l)) else Some l))).
