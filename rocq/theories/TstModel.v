(** The runner of tests: crates/tinymist/src/tool/testing.rs.
    A file of references is the kind of the example and a file name; file
    operations succeed. *)
From Coq Require Import String.
From Coq Require Import List NArith Bool.
From Verif Require Import LocModel.
Import ListNotations.

(** * Files *)

(** The directory below [refs] ([true]: html) and the name of the file;
    crates/tinymist/src/tool/testing.rs:523-525. *)
Definition fpath := (bool * text)%type.
(** crates/tinymist/src/tool/testing.rs:528-532 *)
Definition files := list (fpath * text).
(** Equality of paths, crates/tinymist/src/tool/testing.rs:528. *)
Definition fpath_eqb (a b : fpath) : bool := Bool.eqb (fst a) (fst b) && eqb (snd a) (snd b).
(** [fs::read] and [fs::exists], crates/tinymist/src/tool/testing.rs:528-532,554. *)
Definition read (p : fpath) (f : files) : option text :=
  match find (fun e => fpath_eqb (fst e) p) f with Some e => Some (snd e) | None => None end.
(** [fs::remove_file], crates/tinymist/src/tool/testing.rs:555. *)
Definition remove (p : fpath) (f : files) : files := filter (fun e => negb (fpath_eqb (fst e) p)) f.
(** [write_atomic], crates/tinymist/src/tool/testing.rs:541,563-564. *)
Definition write (p : fpath) (d : text) (f : files) : files := (p, d) :: remove p f.

(** The part before the last dot; the whole if there is none. *)
(** [Path::file_stem] inside of [with_extension], crates/tinymist/src/tool/testing.rs:443,523-525. *)
Fixpoint before_dot (s : text) : option text :=
  match s with
  | [] => None
  | c :: s' =>
      match before_dot s' with
      | Some a => Some (c :: a)
      | None => if N.eqb c 46 then Some [] else None
      end
  end.
(** A first dot is part of the stem; crates/tinymist/src/tool/testing.rs:443,523-525. *)
Definition stem (s : text) : text :=
  match before_dot s with Some [] => s | Some a => a | None => s end.
(** [with_extension] of a name, crates/tinymist/src/tool/testing.rs:523-525. *)
Definition with_extension (s ext : text) : text := stem s ++ [46%N] ++ ext.
(** The extension of a kind, crates/tinymist/src/tool/testing.rs:521. *)
Definition ext (html : bool) : text := if html then lit "html" else lit "png".
(** The reference, crates/tinymist/src/tool/testing.rs:523. *)
Definition ref_path (html : bool) (example : text) : fpath := (html, with_extension example (ext html)).
(** The data of a mismatch, crates/tinymist/src/tool/testing.rs:524. *)
Definition tmp_path (html : bool) (example : text) : fpath := (html, with_extension (snd (ref_path html example)) (lit "tmp." ++ ext html)).
(** The hash, crates/tinymist/src/tool/testing.rs:525. *)
Definition hash_path (html : bool) (example : text) : fpath := (html, with_extension (snd (ref_path html example)) (lit "hash")).

(** * The runner *)

(** What is logged, crates/tinymist/src/tool/testing.rs:338-352,545-548. *)
Inductive event := Running (n : text) | Failed (n : text) | Passed (n : text) | Mismatch (n : text).
(** The shared state; a diagnostic is whether it is an error.
    crates/tinymist/src/tool/testing.rs:311-318. *)
Record runner := { fs : files; diags : list (list bool); names : list text; failed : bool; log : list event }.
(** crates/tinymist/src/tool/testing.rs:338-341 *)
Definition running (n : text) (r : runner) : runner :=
  {| fs := fs r; diags := diags r; names := names r; failed := failed r; log := log r ++ [Running n] |}.
(** [mark_failed], crates/tinymist/src/tool/testing.rs:343-347. *)
Definition mark_failed (n : text) (r : runner) : runner :=
  {| fs := fs r; diags := diags r; names := names r; failed := true; log := log r ++ [Failed n] |}.
(** [mark_passed], crates/tinymist/src/tool/testing.rs:349-352. *)
Definition mark_passed (n : text) (r : runner) : runner :=
  {| fs := fs r; diags := diags r; names := names r; failed := failed r; log := log r ++ [Passed n] |}.
(** crates/tinymist/src/tool/testing.rs:545-548 *)
Definition mismatch (n : text) (r : runner) : runner :=
  {| fs := fs r; diags := diags r; names := names r; failed := failed r; log := log r ++ [Mismatch n] |}.
(** [diagnostics.lock().push], crates/tinymist/src/tool/testing.rs:394,472,478. *)
Definition push_diags (d : list bool) (r : runner) : runner :=
  {| fs := fs r; diags := diags r ++ [d]; names := names r; failed := failed r; log := log r |}.
(** Another file system, crates/tinymist/src/tool/testing.rs:541,555,563-564. *)
Definition set_fs (f : files) (r : runner) : runner :=
  {| fs := f; diags := diags r; names := names r; failed := failed r; log := log r |}.

(** [update_example] of data; [hash] is the text of the hash.
    crates/tinymist/src/tool/testing.rs:520-567. *)
Definition update_example (update : bool) (hash : text -> text) (example data : text) (html : bool) (r : runner) : runner :=
  let path := ref_path html example in
  let tmp := tmp_path html example in
  let hp := hash_path html example in
  let equal := match read hp (fs r) with Some h => Some (eqb h (hash data)) | None => None end in
  match update, equal with
  | false, Some false => mismatch example (mark_failed example (set_fs (write tmp data (fs r)) r))
  | _, _ =>
      let r := set_fs (remove tmp (fs r)) r in
      match equal with
      | Some true => r
      | _ => set_fs (write hp (hash data) (write path data (fs r))) r
      end
  end.

(** Compilation and encoding to pages, crates/tinymist/src/tool/testing.rs:469-494. *)
Inductive pages := PagesErr (d : list bool) | NoPng | Png (data : text).
(** Compilation and encoding to HTML, crates/tinymist/src/tool/testing.rs:469-482,496-509. *)
Inductive html := HtmlErr (d : list bool) | EncodeErr (d : list bool) | Html (data : text).
(** An example: its name, warnings and results; [e_html]: the label was found.
    crates/tinymist/src/tool/testing.rs:442-482,569-578. *)
Record example := { e_name : text; e_warn : list bool; e_pages : pages; e_html : bool; e_hwarn : list bool; e_hdoc : html }.
(** The warnings of [build_example], crates/tinymist/src/tool/testing.rs:471-473. *)
Definition warn (d : list bool) (r : runner) : runner := match d with [] => r | _ => push_diags d r end.
(** Pages of an example: whether there is an error, whether there is a document.
    crates/tinymist/src/tool/testing.rs:469-494. *)
Definition run_pages (update : bool) (hash : text -> text) (e : example) (r : runner) : bool * bool * runner :=
  let r := warn (e_warn e) r in
  match e_pages e with
  | PagesErr d => (true, false, push_diags d r)
  | NoPng => (true, true, mark_failed (e_name e) r)
  | Png data => (false, true, update_example update hash (e_name e) data false r)
  end.
(** HTML of an example, crates/tinymist/src/tool/testing.rs:469-482,496-509. *)
Definition run_html (update : bool) (hash : text -> text) (e : example) (r : runner) : bool * runner :=
  let r := warn (e_hwarn e) r in
  match e_hdoc e with
  | HtmlErr d => (true, push_diags d r)
  | EncodeErr d => (true, mark_failed (e_name e) (push_diags d r))
  | Html data => (false, update_example update hash (e_name e) data true r)
  end.
(** [run_example], crates/tinymist/src/tool/testing.rs:442-467. *)
Definition run_example (update : bool) (hash : text -> text) (e : example) (r : runner) : runner :=
  let name := e_name e in
  let r := running name r in
  if existsb (eqb name) (names r) then mark_failed name r
  else
    let r := {| fs := fs r; diags := diags r; names := name :: names r; failed := failed r; log := log r |} in
    let '(err, doc, r) := run_pages update hash e r in
    let '(err, r) :=
      if doc && e_html e then let '(err', r) := run_html update hash e r in (err || err', r) else (err, r) in
    if err then mark_failed name r else mark_passed name r.

(** The end of a call: each error is whether it has the severity and whether
    its message has the word panic.  crates/tinymist/src/tool/testing.rs:389-415. *)
Inductive test :=
| Calls (name : text) (res : option (list (bool * bool)))
| Panics (name : text) (res : option (list (bool * bool)))
| Shows (name : text) (e : option example).
(** One test, crates/tinymist/src/tool/testing.rs:381-422. *)
Definition run_test (update : bool) (hash : text -> text) (t : test) (r : runner) : runner :=
  match t with
  | Calls n res =>
      let r := running n r in
      match res with
      | Some errs => mark_failed n (push_diags (map fst errs) r)
      | None => mark_passed n r
      end
  | Panics n res =>
      let r := running n r in
      match res with
      | None => mark_failed n r
      | Some errs => if forallb snd errs then mark_passed n r else mark_failed n (push_diags (map fst errs) r)
      end
  | Shows n (Some e) => run_example update hash e r
  | Shows n None => mark_failed n r
  end.
(** A case, crates/tinymist/src/tool/testing.rs:369-379. *)
Inductive case := Example_ (e : example) | Test_ (t : test).
(** crates/tinymist/src/tool/testing.rs:372-422 *)
Definition run_case (update : bool) (hash : text -> text) (r : runner) (c : case) : runner :=
  match c with Example_ e => run_example update hash e r | Test_ t => run_test update hash t r end.
(** How a run ends, crates/tinymist/src/tool/testing.rs:363,425-439. *)
Inductive verdict := Verdict (passed : bool) | Errors (d : list bool).
(** The end of [run], crates/tinymist/src/tool/testing.rs:425-439. *)
Definition finish (r : runner) : verdict :=
  if existsb (fun d => d) (concat (diags r)) then Errors (concat (diags r)) else Verdict (negb (failed r)).
(** A new runner, crates/tinymist/src/tool/testing.rs:321-330. *)
Definition fresh (f : files) : runner := {| fs := f; diags := []; names := []; failed := false; log := [] |}.
(** [run] in the order of the cases, crates/tinymist/src/tool/testing.rs:363-440. *)
Definition run (update : bool) (hash : text -> text) (cases : list case) (f : files) : runner :=
  fold_left (run_case update hash) cases (fresh f).
(** The exit code is zero, crates/tinymist/src/tool/testing.rs:161-166,272-279. *)
Definition success (v : verdict) : bool := match v with Verdict p => p | Errors _ => false end.
