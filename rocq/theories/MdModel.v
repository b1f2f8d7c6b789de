(** The conversion of documents to Markdown: evaluation of the syntax tree, the
    functions of the library, the images of rendered code and their files.
    crates/typlite/src/lib.rs, crates/typlite/src/library.rs and
    crates/typlite/src/value.rs.  A text is a list of code points. *)
From Coq Require Import String Ascii.
From Coq Require Import List Arith NArith ZArith Bool.
From Verif Require Import DigModel.
Import ListNotations.
Local Open Scope nat_scope.

(** crates/typlite/src/lib.rs:33 *)
Definition text := list N.
(** Literals, crates/typlite/src/lib.rs:410-470. *)
Definition lit (s : string) : text := map N_of_ascii (list_ascii_of_string s).
(** [format!] of numbers, crates/typlite/src/lib.rs:492. *)
Definition dec (n : nat) : text := print_num 10 (N.of_nat n).
(** Equality of strings, crates/typlite/src/value.rs:67. *)
Fixpoint text_eqb (a b : text) : bool :=
  match a, b with
  | [], [] => true
  | x :: a', y :: b' => N.eqb x y && text_eqb a' b'
  | _, _ => false
  end.

(** * Trees, values and the state *)

(** What a call calls, crates/typlite/src/lib.rs:857-861 and the test on the
    header of crates/typlite/src/library.rs:217. *)
Inductive callee := Name (x : text) | Field (x y : text) | OtherCallee.

(** Syntax nodes by what the conversion does with their kind
    (crates/typlite/src/lib.rs:158-323): [Verbatim] are the kinds whose text is
    kept (text, spaces, escapes, markers, punctuation, keywords), [Silent] those
    without a value, [Mute] the code expressions without a value whose text is
    not kept for later code, [Fails] errors and parts of equations, [Seq]
    markup, code and term items, [Block] code and content blocks.  Nodes whose
    value may be none have their text. *)
Inductive node :=
| Verbatim (t : text) | LineBreak | HashMark | Silent (t : text) | Mute | IntLit (z : Z) | ArrayLit (n : nat) | StrLit (s : text) | Fails
| Seq (l : list node) | Block (b : node) | Paren (t : text) (e : node)
| Strong (b : node) | Emph (b : node) | Heading (level : nat) (b : node)
| Raw (lang : option text) (block : bool) (t : text) (lines : list text)
| AutoLink (t : text) | ListItem (b : node) | EnumItem (n : option N) (b : node)
| Equation (block : bool) (t : text) | Contextual (t : text)
| Closure (t : text) (b : node)
| Call (t : text) (c : callee) (args : list (option text * node))
| Include (t : text) (path : text).

(** [Value]; no expression has a function as its value.
    crates/typlite/src/value.rs:9-16. *)
Inductive value := VNone | VStr (s : text) | VContent (s : text) | VImage (path alt : text).

(** crates/typlite/src/lib.rs:41-47 *)
Inductive theme := Light | Dark.
(** The files written: images and sources.
    crates/typlite/src/lib.rs:384-387,491-493,667-669. *)
Inductive file := Svg (n : nat) (t : theme) | Typ (n : nat).

(** What changes: of the worker, and the files in the order they are written.
    crates/typlite/src/lib.rs:138-148. *)
Record state := { depth : nat; prepend : text; number : nat; files : list (file * text) }.

(** How a step ends: [Endless] is recursion without end.
    crates/typlite/src/lib.rs:37. *)
Inductive outcome (A : Type) := Done (a : A) (s : state) | Failed | Panicked | Endless.
Arguments Done {A}. Arguments Failed {A}. Arguments Panicked {A}. Arguments Endless {A}.
(** Steps, crates/typlite/src/lib.rs:37. *)
Definition step (A : Type) := state -> outcome A.
(** crates/typlite/src/lib.rs:37 *)
Definition ret {A} (a : A) : step A := Done a.
(** [?], crates/typlite/src/lib.rs:152. *)
Definition bind {A B} (m : step A) (f : A -> step B) : step B :=
  fun s => match m s with Done a s' => f a s' | Failed => Failed | Panicked => Panicked | Endless => Endless end.
(** crates/typlite/src/lib.rs:160 *)
Definition fail {A} : step A := fun _ => Failed.

(** The features and the world: the compiler gives an image or an error.
    crates/typlite/src/lib.rs:49-64,569-676. *)
Record env := {
  color_theme : option theme; assets : option text; sources : option text; gfm : bool; annotate : bool; soft_error : bool; remove_html : bool;
  docs_lib : bool; compile : text -> theme -> text + text; base64 : text -> text; quoted : text -> text }.

(** * Values as text *)

(** [TypliteWorker::value], crates/typlite/src/lib.rs:686-694. *)
Definition show (v : value) : text :=
  match v with
  | VNone => []
  | VStr s | VContent s => s
  | VImage p a => lit "![" ++ a ++ lit "](" ++ p ++ lit ")"
  end.

(** * Images of code *)

(** crates/typlite/src/lib.rs:384-386 *)
Definition write (f : file) (c : text) : step unit :=
  fun s => Done tt {| depth := depth s; prepend := prepend s; number := number s; files := files s ++ [(f, c)] |}.
(** [{:?}] of themes, crates/typlite/src/lib.rs:41-47. *)
Definition theme_name (t : theme) : text := match t with Light => lit "Light" | Dark => lit "Dark" end.
(** crates/typlite/src/lib.rs:384-386,491-492 *)
Definition path_of (dir : text) (f : file) : text :=
  match f with Svg n t => dir ++ lit "/" ++ dec n ++ lit "_" ++ theme_name t ++ lit ".svg" | Typ n => dir ++ lit "/" ++ dec n ++ lit ".typ" end.

(** [WrapCode], crates/typlite/src/lib.rs:900-917. *)
Definition wrap (code : text) (markup : bool) : text :=
  if markup then lit "#[" ++ code ++ lit "]" else lit "#{" ++ code ++ lit "}".

(** The lines put before the code, crates/typlite/src/lib.rs:589-594; the theme
    is given to the compiler as an input. *)
Definition preamble : text :=
  lit "
            #set page(width: auto, height: auto, margin: (y: 0.45em, rest: 0em), fill: none);
            #set text(fill: rgb(""#c0caf5"")) if sys.inputs.at(""x-color-theme"", default: none) == ""dark"";
            ".

(** [render_inner]: the name of the file, or the data; [inr] is an error.
    crates/typlite/src/lib.rs:569-676. *)
Definition render_inner (e : env) (before code : text) (markup : bool) (t : theme) : step (text + text) :=
  match compile e (before ++ preamble ++ wrap code markup) t with
  | inr err => ret (inr err)
  | inl svg =>
      match assets e with
      | Some dir => fun s => bind (write (Svg (number s) t) svg) (fun _ => ret (inl (path_of dir (Svg (number s) t)))) s
      | None => ret (inl (base64 e svg))
      end
  end.

(** [write_error], crates/typlite/src/lib.rs:426-429. *)
Definition error_block (err : text) : text :=
  lit "```
Render Error
" ++ flat_map (fun c => if N.eqb c 96 then [92; 96]%N else [c]) err ++ lit "
```".

(** crates/typlite/src/lib.rs:478-485 and the like *)
Definition with_data (e : env) (r : text + text) (f : text -> step value) : step value :=
  match r with
  | inl d => f d
  | inr err => if soft_error e then ret (VContent (error_block err)) else fail
  end.

(** The link to the source of the code, crates/typlite/src/lib.rs:431-474. *)
Definition linked (e : env) (n : nat) (img : text) : text :=
  match sources e with
  | Some dir => lit "<a href=""" ++ path_of dir (Typ n) ++ lit """>" ++ img ++ lit "</a>"
  | None => img
  end.
(** crates/typlite/src/lib.rs:439,446 *)
Definition img (inline_attrs src extra : text) : text :=
  lit "<img" ++ inline_attrs ++ lit " alt=""typst-block"" src=""" ++ src ++ lit """ " ++ extra ++ lit "/>".
(** crates/typlite/src/lib.rs:461,469 *)
Definition picture (dark inner : text) : text :=
  lit "<picture><source media=""(prefers-color-scheme: dark)"" srcset=""" ++ dark ++ lit """>" ++ inner ++ lit "</picture>".
(** crates/typlite/src/lib.rs:487-489,509-511 *)
Definition paragraph (inline : bool) (align c : text) : text :=
  if inline then c else lit "<p align=""" ++ align ++ lit """>" ++ c ++ lit "</p>".

(** [render_code], crates/typlite/src/lib.rs:395-567. *)
Definition render_code (e : env) (before code : text) (markup : bool) (align extra : text) (inline : bool) : step value :=
  fun s =>
  let n := number s in
  let attrs := if inline then lit " style=""vertical-align: -0.35em""" else [] in
  match color_theme e with
  | Some t =>
      bind (render_inner e before code markup t) (fun r => with_data e r (fun data =>
        match assets e with
        | Some dir =>
            bind (write (Svg n t) data) (fun _ =>
            ret (VContent (paragraph inline align (linked e n (img attrs (path_of dir (Svg n t)) extra)))))
        | None => ret (VContent (paragraph inline align (img attrs (lit "data:image/svg+xml;base64," ++ data) extra)))
        end)) s
  | None =>
      bind (render_inner e before code markup Dark) (fun r => with_data e r (fun dark =>
      bind (render_inner e before code markup Light) (fun r => with_data e r (fun light =>
        match assets e with
        | Some dir => ret (VContent (paragraph inline align (linked e n (picture (path_of dir (Svg n Dark)) (img attrs (path_of dir (Svg n Light)) extra)))))
        | None => ret (VContent (paragraph inline align (picture (lit "data:image/svg+xml;base64," ++ dark) (img attrs (lit "data:image/svg+xml;base64," ++ light) extra))))
        end)))) s
  end.

(** [render], crates/typlite/src/lib.rs:374-393. *)
Definition render (e : env) (before code : text) (inline : bool) : step value :=
  fun s =>
  let s := {| depth := depth s; prepend := prepend s; number := S (number s); files := files s |} in
  bind (match sources e with
        | Some _ => write (Typ (number s)) (lit "#{
// render_code
" ++ code ++ lit "
}")
        | None => ret tt
        end) (fun _ => render_code e before code false (lit "center") [] inline) s.

(** [to_raw_block] of equations and contexts, which are expressions,
    crates/typlite/src/lib.rs:346-372. *)
Definition to_raw_block (t : text) (inline : bool) : value :=
  VContent (if inline then lit "`" ++ t ++ lit "`" else lit "```typc
" ++ t ++ lit "
```").

(** * The library *)

(** An argument: its name, its node, what evaluates it, what evaluates the body
    if it is a closure, the positional arguments if it is a call.
    crates/typlite/src/value.rs:40-61,176-185. *)
Record arg := { key : option text; src : node; run : step value; lazy : step value; inner : list (step value) }.

(** [Args::new], crates/typlite/src/value.rs:47-61. *)
Definition positional (l : list arg) : list arg := filter (fun a => match key a with None => true | _ => false end) l.
(** [get_named_], crates/typlite/src/value.rs:63-74. *)
Definition named (k : text) (l : list arg) : option arg :=
  find (fun a => match key a with Some k' => text_eqb k' k | None => false end) l.
(** [get]: the argument and the positional ones that are left.
    crates/typlite/src/value.rs:76-86. *)
Definition get (k : text) (l : list arg) (pos : list arg) : option (arg * list arg) :=
  match named k l with
  | Some a => Some (a, pos)
  | None => match pos with a :: pos' => Some (a, pos') | [] => None end
  end.
(** Strings, crates/typlite/src/value.rs:155-162. *)
Definition as_str (a : arg) : option text := match src a with StrLit s => Some s | _ => None end.
(** Content, crates/typlite/src/value.rs:170-174. *)
Definition as_content (m : step value) : step text := bind m (fun v => ret (show v)).

(** A function of one string, crates/typlite/src/library.rs:65-66,98-99. *)
Definition with_str (k : text) (l : list arg) (f : text -> step value) : step value :=
  match get k l (positional l) with
  | Some (a, _) => match as_str a with Some s => f s | None => fail end
  | None => fail
  end.
(** A function of one content, crates/typlite/src/library.rs:86-87,113-114. *)
Definition with_body (l : list arg) (f : text -> value) : step value :=
  match get (lit "body") l (positional l) with
  | Some (a, _) => bind (as_content (run a)) (fun t => ret (f t))
  | None => fail
  end.

(** crates/typlite/src/library.rs:32-37 *)
Definition link_fn (l : list arg) : step value :=
  match get (lit "dest") l (positional l) with
  | Some (a, pos) =>
      match as_str a with
      | Some dest =>
          match get (lit "body") l pos with
          | Some (b, _) => bind (as_content (run b)) (fun t => ret (VContent (lit "[" ++ t ++ lit "](" ++ dest ++ lit ")")))
          | None => fail
          end
      | None => fail
      end
  | None => fail
  end.

(** crates/typlite/src/library.rs:40-45 *)
Definition image_fn (l : list arg) : step value :=
  with_str (lit "path") l (fun p =>
    match named (lit "alt") l with
    | Some a => match as_str a with Some alt => ret (VImage p alt) | None => fail end
    | None => ret (VImage p [])
    end).

(** crates/typlite/src/library.rs:48-62 *)
Definition figure_fn (e : env) (l : list arg) : step value :=
  match get (lit "path") l (positional l) with
  | None => fail
  | Some (a, _) =>
      bind (run a) (fun body =>
      bind (match named (lit "caption") l with Some c => bind (as_content (run c)) (fun t => ret (Some t)) | None => ret None end) (fun caption =>
      match body, caption with
      | VImage p alt, None => ret (VContent (lit "![" ++ alt ++ lit "](" ++ p ++ lit ")"))
      | VImage p alt, Some c =>
          ret (VContent (if gfm e then lit "![" ++ c ++ lit ", " ++ alt ++ lit "](" ++ p ++ lit " " ++ quoted e c ++ lit ")"
                         else lit "![" ++ c ++ lit ", " ++ alt ++ lit "](" ++ p ++ lit ")"))
      | _, _ => fail
      end))
  end.

(** The longest run of backticks as it is computed,
    crates/typlite/src/library.rs:68-78. *)
Definition max_ticks (s : text) : nat :=
  fst (fold_left (fun x c => if N.eqb c 96 then (fst x, S (snd x)) else (Nat.max (fst x) (snd x), 0)) s (0, 0)).
(** crates/typlite/src/library.rs:80-83 *)
Definition raw_block (s : text) : text :=
  let f := repeat 96%N (Nat.max (max_ticks s + 1) 3) in f ++ [10%N] ++ s ++ [10%N] ++ f.

(** [str::lines], crates/typlite/src/library.rs:153. *)
Fixpoint lines_acc (cur : text) (s : text) : list text :=
  match s with
  | [] => match cur with [] => [] | _ => [rev cur] end
  | c :: s' =>
      if N.eqb c 10 then rev (match cur with x :: cur' => if N.eqb x 13 then cur' else cur | [] => cur end) :: lines_acc [] s'
      else lines_acc (c :: cur) s'
  end.
(** [note_box], crates/typlite/src/library.rs:147-160. *)
Definition note_box (title body : text) : text :=
  lit "> [!" ++ title ++ lit "]" ++ [10%N] ++ flat_map (fun l => lit "> " ++ l ++ [10%N]) (lines_acc [] body).

(** [chunks]; [n] is not zero.  crates/typlite/src/library.rs:246. *)
Fixpoint chunks {A} (n fuel : nat) (l : list A) : list (list A) :=
  match fuel, l with
  | S fuel', _ :: _ => firstn n l :: chunks n fuel' (skipn n l)
  | _, _ => []
  end.

(** The number of columns; [None] is an error, [Some None] a panic.
    crates/typlite/src/library.rs:173-187. *)
Definition columns_of (l : list arg) : option (option nat) :=
  match named (lit "columns") l with
  | None => Some (Some 1)
  | Some a =>
      match src a with
      | ArrayLit n => Some (Some n)
      | IntLit z => Some (if Z.ltb z 0 then None else Some (Z.to_nat z))
      | _ => None
      end
  end.

(** crates/typlite/src/library.rs:219-222,229-232 *)
Fixpoint eval_all (ms : list (step value)) : step (list text) :=
  match ms with
  | [] => ret []
  | m :: ms' => bind (as_content m) (fun t => bind (eval_all ms') (fun ts => ret (t :: ts)))
  end.

(** The header and the cells, crates/typlite/src/library.rs:206-235. *)
Fixpoint table_cells (kind : text) (pos : list arg) : step (list text * list text) :=
  match pos with
  | [] => ret ([], [])
  | a :: pos' =>
      bind (match src a with
            | Call _ (Field x y) _ =>
                if text_eqb x kind && text_eqb y (lit "header") then bind (eval_all (inner a)) (fun ts => ret (ts, []))
                else
                  bind (as_content (run a)) (fun t =>
                  if text_eqb x kind && text_eqb y (lit "footer") then bind (eval_all (inner a)) (fun ts => ret ([], t :: ts))
                  else ret ([], [t]))
            | _ => bind (as_content (run a)) (fun t => ret ([], [t]))
            end) (fun x => bind (table_cells kind pos') (fun y => ret (fst x ++ fst y, snd x ++ snd y)))
  end.

(** crates/typlite/src/library.rs:237-253 *)
Definition table_text (header : list text) (rows : list (list text)) : text :=
  lit "<table>" ++ [10%N] ++
  (match header with
   | [] => []
   | _ => lit "  <thead>
    <tr>
" ++ flat_map (fun c => lit "      <th>" ++ c ++ lit "</th>" ++ [10%N]) header ++ lit "    </tr>
  </thead>
"
   end) ++
  lit "  <tbody>" ++ [10%N] ++
  flat_map (fun r => lit "    <tr>" ++ [10%N] ++ flat_map (fun c => lit "      <td>" ++ c ++ lit "</td>" ++ [10%N]) r ++ lit "    </tr>" ++ [10%N]) rows ++
  lit "  </tbody>
</table>".

(** [table_eval], crates/typlite/src/library.rs:172-256. *)
Definition table_fn (kind : text) (l : list arg) : step value :=
  match columns_of l with
  | None => fail
  | Some None => fun _ => Panicked
  | Some (Some n) =>
      bind (table_cells kind (positional l)) (fun x =>
      if n =? 0 then fun _ => Panicked
      else ret (VContent (table_text (fst x) (chunks n (length (snd x)) (snd x)))))
  end.

(** [strip_prefix], crates/typlite/src/library/docstring.rs:26,29. *)
Fixpoint strip_prefix (p s : text) : option text :=
  match p, s with
  | [], _ => Some s
  | x :: p', y :: s' => if N.eqb x y then strip_prefix p' s' else None
  | _, [] => None
  end.
(** The lines shown and the lines compiled,
    crates/typlite/src/library/docstring.rs:22-38. *)
Fixpoint split_example (ls : list text) : text * text :=
  match ls with
  | [] => ([], [])
  | l :: ls' =>
      let r := split_example ls' in
      match strip_prefix (lit ">>>") l with
      | Some x => (fst r, x ++ [10%N] ++ snd r)
      | None =>
          match strip_prefix (lit "<<< ") l with
          | Some x => (x ++ [10%N] ++ fst r, snd r)
          | None => (l ++ [10%N] ++ fst r, l ++ [10%N] ++ snd r)
          end
      end
  end.
(** [example], crates/typlite/src/library/docstring.rs:12-59. *)
Definition example_fn (e : env) (l : list arg) : step value :=
  match get (lit "body") l (positional l) with
  | Some (a, _) =>
      match src a with
      | Raw lang _ _ ls =>
          let lang := match lang with Some x => x | None => lit "typ" end in
          let '(display, code) := split_example ls in
          let s := lit "```" ++ lang ++ [10%N] ++ display ++ [10%N] ++ lit "```" ++ [10%N] in
          if remove_html e then ret (VContent s)
          else bind (render_code e [] code (negb (text_eqb lang (lit "typc"))) (lit "left") (lit "width=""500px""") false)
                    (fun v => ret (VContent (s ++ show v)))
      | _ => fail
      end
  | None => fail
  end.

(** [md_alter], crates/typlite/src/library.rs:105-110. *)
Definition alter_fn (l : list arg) : step value :=
  match get (lit "left") l (positional l) with
  | Some (_, pos) =>
      match get (lit "right") l pos with
      | Some (b, _) => bind (as_content (lazy b)) (fun t => ret (VContent t))
      | None => fail
      end
  | None => fail
  end.

(** [library] and [docstring_lib]; [None]: there is no such function.
    crates/typlite/src/library.rs:11-29, crates/typlite/src/library/docstring.rs:3-9. *)
Definition library (e : env) (x : text) (l : list arg) : step value :=
  if text_eqb x (lit "link") then link_fn l
  else if text_eqb x (lit "kbd") then with_str (lit "key") l (fun k => ret (VContent (lit "<kbd>" ++ k ++ lit "</kbd>")))
  else if text_eqb x (lit "md-alter") then alter_fn l
  else if text_eqb x (lit "image") then image_fn l
  else if text_eqb x (lit "figure") then figure_fn e l
  else if text_eqb x (lit "raw") then with_str (lit "content") l (fun s => ret (VContent (raw_block s)))
  else if text_eqb x (lit "strike") then with_body l (fun t => VContent (lit "~~" ++ t ++ lit "~~"))
  else if text_eqb x (lit "pad") then match get (lit "path") l (positional l) with Some (a, _) => run a | None => fail end
  else if text_eqb x (lit "note-box") then with_body l (fun t => VContent (note_box (lit "NOTE") t))
  else if text_eqb x (lit "tip-box") then with_body l (fun t => VContent (note_box (lit "TIP") t))
  else if text_eqb x (lit "important-box") then with_body l (fun t => VContent (note_box (lit "IMPORTANT") t))
  else if text_eqb x (lit "warning-box") then with_body l (fun t => VContent (note_box (lit "WARNING") t))
  else if text_eqb x (lit "caution-box") then with_body l (fun t => VContent (note_box (lit "CAUTION") t))
  else if text_eqb x (lit "table") then table_fn (lit "table") l
  else if text_eqb x (lit "grid") then table_fn (lit "grid") l
  else if docs_lib e && text_eqb x (lit "example") then example_fn e l
  else fail.

(** * Evaluation *)

(** What is kept of a node without a value; [HashMark] is without a newline.
    crates/typlite/src/lib.rs:321-331. *)
Definition keep (t : text) : step unit :=
  fun s => Done tt {| depth := depth s; prepend := prepend s ++ t; number := number s; files := files s |}.
(** crates/typlite/src/lib.rs:321-331 *)
Definition kept (t : text) (m : step value) : step value :=
  bind m (fun v => match v with VNone => bind (keep (t ++ [10%N])) (fun _ => ret VNone) | _ => ret v end).

(** [trim_end_matches], crates/typlite/src/lib.rs:875. *)
Fixpoint drop_hashes (t : text) : text := match t with c :: t' => if N.eqb c 35 then drop_hashes t' else t | [] => [] end.
(** crates/typlite/src/lib.rs:875 *)
Definition trim_hashes (t : text) : text := rev (drop_hashes (rev t)).

(** [raw], crates/typlite/src/lib.rs:738-764. *)
Definition raw_text (lang : option text) (block : bool) (t : text) (ls : list text) : text :=
  if (match lang with Some x => text_eqb x (lit "typlite") | None => false end) then flat_map (fun l => l ++ [10%N]) ls
  else if block then t
  else lit "`" ++ concat ls ++ lit "`".

(** [list_item], crates/typlite/src/lib.rs:795-812. *)
Definition list_item (e : env) (m : step value) : step value :=
  if annotate e then
    fun s => let d := depth s in
    match m {| depth := S d; prepend := prepend s; number := number s; files := files s |} with
    | Done v s' =>
        let d' := pred (depth s') in
        Done (VContent (lit "- <!-- typlite:begin:list-item " ++ dec d ++ lit " -->" ++ show v ++ lit "<!-- typlite:end:list-item " ++ dec d' ++ lit " -->"))
             {| depth := d'; prepend := prepend s'; number := number s'; files := files s' |}
    | Failed => Failed | Panicked => Panicked | Endless => Endless
    end
  else bind m (fun v => ret (VContent (lit "- " ++ show v))).

(** [contextual], crates/typlite/src/lib.rs:870-881. *)
Definition contextual (e : env) (t : text) : step value :=
  if remove_html e then ret (to_raw_block t false)
  else fun s =>
    let p := trim_hashes (prepend s) in
    render e p t false {| depth := depth s; prepend := p; number := number s; files := files s |}.

(** [reduce], crates/typlite/src/lib.rs:335-344. *)
Fixpoint reduce (ms : list (step value)) : step text :=
  match ms with
  | [] => ret []
  | m :: ms' => bind m (fun v => bind (reduce ms') (fun t => ret (show v ++ t)))
  end.

(** [include]: the worker is a copy; of what it does only the files stay.
    crates/typlite/src/lib.rs:883-897. *)
Definition included (m : step text) : step value :=
  fun s => match m s with
           | Done t s' => Done (VContent t) {| depth := depth s; prepend := prepend s; number := number s; files := files s' |}
           | Failed => Failed | Panicked => Panicked | Endless => Endless
           end.

(** [eval]; [inc] converts an included file.  crates/typlite/src/lib.rs:156-333. *)
Fixpoint eval (e : env) (inc : text -> step text) (n : node) : step value :=
  match n with
  | Verbatim t => ret (VContent t)
  | LineBreak => ret (VContent [10%N])
  | HashMark => bind (keep [35%N]) (fun _ => ret VNone)
  | Silent t => kept t (ret VNone)
  | Mute | IntLit _ | ArrayLit _ => ret VNone
  | StrLit s => ret (VStr s)
  | Fails => fail
  | Seq l => bind (reduce (map (eval e inc) l)) (fun t => ret (VContent t))
  | Block b => eval e inc b
  | Paren t x => kept t (eval e inc x)
  | Strong b => bind (eval e inc b) (fun v => ret (VContent (lit "**" ++ show v ++ lit "**")))
  | Emph b => bind (eval e inc b) (fun v => ret (VContent (lit "_" ++ show v ++ lit "_")))
  | Heading k b => bind (eval e inc b) (fun v => ret (VContent (repeat 35%N k ++ lit " " ++ show v)))
  | Raw lang block t ls => ret (VContent (raw_text lang block t ls))
  | AutoLink t => ret (VContent (if gfm e then t else lit "[" ++ t ++ lit "](" ++ t ++ lit ")"))
  | ListItem b => list_item e (eval e inc b)
  | EnumItem k b => bind (eval e inc b) (fun v => ret (VContent ((match k with Some i => print_num 10 i | None => lit "1" end) ++ lit ". " ++ show v)))
  | Equation block t => if remove_html e then ret (to_raw_block t (negb block)) else render e [] t (negb block)
  | Contextual t => contextual e t
  | Closure t _ => kept t (ret VNone)
  | Call t c args =>
      kept t (match c with
              | Name x => library e x (map (fun p => match p with
                  | (k, a) =>
                      {| key := k; src := a; run := eval e inc a;
                         lazy := match a with Closure _ b => eval e inc b | _ => eval e inc a end;
                         inner := match a with
                                  | Call _ _ l => flat_map (fun q => match q with (None, b) => [eval e inc b] | (Some _, _) => [] end) l
                                  | _ => []
                                  end |}
                  end) args)
              | _ => ret VNone
              end)
  | Include _ p => included (inc p)
  end.

(** The world: the tree of the file of a path ([None]: it is not found).
    crates/typlite/src/lib.rs:885-889; paths are from the root here. *)
Definition world := text -> option node.
(** [sub_file] with a bound on the depth of includes,
    crates/typlite/src/lib.rs:894-897. *)
Fixpoint convert (k : nat) (e : env) (w : world) (p : text) : step text :=
  match k with
  | 0 => fun _ => Endless
  | S k' => match w p with Some n => as_content (eval e (convert k' e w) n) | None => fail end
  end.

(** The state at the start, crates/typlite/src/lib.rs:122-135. *)
Definition start : state := {| depth := 0; prepend := []; number := 0; files := [] |}.
