(** Model of page ranges, resource paths and output patterns:
    crates/tinymist-task/src/primitives.rs 101-301 and
    crates/tinymist-task/src/compute.rs 61-75, 299-321. *)
From Coq Require Import List NArith Bool.
From Verif Require Import DigModel.
Import ListNotations.
Open Scope N_scope.

(** * Text *)
(** [char::is_whitespace], for [str::trim] at primitives.rs:191. *)
Definition is_white (c : chr) : bool :=
  ((9 <=? c) && (c <=? 13)) || (c =? 32) || (c =? 133) || (c =? 160) || (c =? 5760) ||
  ((8192 <=? c) && (c <=? 8202)) || (c =? 8232) || (c =? 8233) || (c =? 8239) || (c =? 8287) || (c =? 12288).
(** [str::trim_start]; see [trim], primitives.rs:191. *)
Fixpoint trim_start (s : list chr) : list chr :=
  match s with [] => [] | c :: r => if is_white c then trim_start r else s end.
(** [str::trim], primitives.rs:191. *)
Definition trim (s : list chr) : list chr := rev (trim_start (rev (trim_start s))).
(** [str::split] by one character, primitives.rs:190,273. *)
Fixpoint split (sep : chr) (s : list chr) : list (list chr) :=
  match s with
  | [] => [[]]
  | c :: r => if c =? sep then [] :: split sep r
              else match split sep r with p :: ps => (c :: p) :: ps | [] => [[c]] end
  end.

(** * Page ranges *)
(** primitives.rs:178 [Pages]: a range whose ends may be open. *)
Definition pages := (option N * option N)%type.
(** primitives.rs:182 [Pages::FIRST]. *)
Definition first_pages : pages := (Some 1, None).
(** The error messages of primitives.rs:195-212 and 253-255. *)
Inductive perr := EEmpty | ENoEnds | EOrder | EHyphens | EZero | ENumber.
(** primitives.rs:251-257 [parse_page_number]; [NonZeroUsize::from_str] refuses zero. *)
Definition parse_page_number (s : list chr) : N + perr :=
  match s with
  | [48] => inr EZero
  | _ => match parse_num 10 max64 s with
         | Some n => if n =? 0 then inr ENumber else inl n
         | None => inr ENumber
         end
  end.
(** primitives.rs:188-214 [Pages::from_str]. *)
Definition parse_pages (s : list chr) : pages + perr :=
  match map trim (split 45 s) with
  | [] | [[]] => inr EEmpty
  | [a] => match parse_page_number a with inl n => inl (Some n, Some n) | inr e => inr e end
  | [[]; []] => inr ENoEnds
  | [a; []] => match parse_page_number a with inl n => inl (Some n, None) | inr e => inr e end
  | [[]; b] => match parse_page_number b with inl n => inl (None, Some n) | inr e => inr e end
  | [a; b] =>
      match parse_page_number a with
      | inl m => match parse_page_number b with
                 | inl n => if n <? m then inr EOrder else inl (Some m, Some n)
                 | inr e => inr e
                 end
      | inr e => inr e
      end
  | _ => inr EHyphens
  end.
(** primitives.rs:217-229 [Display for Pages]. *)
Definition print_end (x : option N) : list chr := match x with Some n => print_num 10 n | None => [] end.
(** See [print_end]; primitives.rs:217-229. *)
Definition print_pages (p : pages) : list chr := print_end (fst p) ++ [45] ++ print_end (snd p).

(** The transforms of an export task, crates/tinymist-task/src/model.rs:180-200. *)
Inductive transform := TPages (ranges : list pages) | TOther.
(** Equality on pages, derived at primitives.rs:177. *)
Definition end_eqb (a b : option N) : bool :=
  match a, b with Some x, Some y => x =? y | None, None => true | _, _ => false end.
(** compute.rs:301-304: the only place where the ranges are looked at. *)
Definition is_first (ts : list transform) : bool :=
  existsb (fun t => match t with
                    | TPages [p] => end_eqb (fst p) (fst first_pages) && end_eqb (snd p) (snd first_pages)
                    | _ => false
                    end) ts.
(** The numbers of the pages of a document with [n] pages that are exported to an image:
    compute.rs:61-75,107-119 (crates/tinymist/src/task/export.rs:277-304 does the same, with
    an error for the first page of an empty document). *)
Definition exported (n : nat) (ts : list transform) : list nat :=
  if is_first ts then match n with O => [] | _ => [1%nat] end else seq 1 n.
(** Exports to PDF: crates/tinymist-task/src/compute/pdf.rs:45-52 passes no page ranges. *)
Definition exported_pdf (n : nat) (ts : list transform) : list nat := seq 1 n.

(** * Resource paths *)
(** primitives.rs:261 [ResourcePath]: a scheme and a path. *)
Definition resource := (list chr * list chr)%type.
(** primitives.rs:263-267 [Display for ResourcePath]. *)
Definition print_resource (r : resource) : list chr := fst r ++ [58] ++ snd r.
(** primitives.rs:272-281 [ResourcePath::from_str]. *)
Definition parse_resource (s : list chr) : option resource :=
  match split 58 s with [a; b] => Some (a, b) | _ => None end.

(** * Output patterns *)
(** Does the text start with the word?  For [str::replace] at primitives.rs:161-166. *)
Fixpoint starts (w s : list chr) : bool :=
  match w, s with
  | [], _ => true
  | a :: w, b :: s => (a =? b) && starts w s
  | _ :: _, [] => false
  end.
(** [str::replace] of a non-empty word (primitives.rs:161-166); [skip] counts the
    characters of a match that are still to be dropped. *)
Fixpoint replace (w by_ : list chr) (skip : nat) (s : list chr) : list chr :=
  match s with
  | [] => []
  | c :: r =>
      match skip with
      | S k => replace w by_ k r
      | O => if starts w s then by_ ++ replace w by_ (pred (length w)) r else c :: replace w by_ O r
      end
  end.
(** The three words of primitives.rs:161,164,166. *)
Definition w_root : list chr := [36; 114; 111; 111; 116].
(** See [w_root]; primitives.rs:164. *)
Definition w_dir : list chr := [36; 100; 105; 114].
(** See [w_root]; primitives.rs:166. *)
Definition w_name : list chr := [36; 110; 97; 109; 101].
(** primitives.rs:157-166, the text before it is cleaned as a path (left out); the
    checks of primitives.rs:133-151 (no root, packages, untitled files) are left out. *)
Definition substitute (pat root : list chr) (dir : option (list chr)) (name : list chr) : list chr :=
  let p := replace w_root root O pat in
  let p := match dir with Some d => replace w_dir d O p | None => p end in
  replace w_name name O p.
