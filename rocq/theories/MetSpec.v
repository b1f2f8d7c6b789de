(** * What the metrics of a document must be *)

From Coq Require Import List Arith NArith Bool.
From Verif Require Import MetModel.
Import ListNotations.

(** The text items of a document, in order of reading. *)
Fixpoint texts (x : item) : list (nat * list glyph) :=
  match x with
  | Text f gs => [(f, gs)]
  | Group xs => flat_map texts xs
  | Other => []
  end.

Definition all_texts (ps : list (list item)) : list (nat * list glyph) :=
  flat_map (flat_map texts) ps.

(** The glyphs set in a font. *)
Definition glyphs_of (f : nat) (ts : list (nat * list glyph)) : list glyph :=
  flat_map (fun t => if Nat.eqb (fst t) f then snd t else []) ts.

(** Where a font first occurs: the first text item set in it whose first glyph
    can be found in a source. *)
Fixpoint occurs (v : env) (f : nat) (ts : list (nat * list glyph)) : option place :=
  match ts with
  | [] => None
  | (g, gs) :: ts' =>
      match (if Nat.eqb g f then match gs with x :: _ => locate v x | [] => None end else None) with
      | Some p => Some p
      | None => occurs v f ts'
      end
  end.

(** No single item has more glyphs than the counter can count. *)
Definition countable (ts : list (nat * list glyph)) : Prop :=
  forall f gs, In (f, gs) ts -> (N.of_nat (length gs) <= max_uses)%N.

(** The rows are right: one for each font that some item is set in, with the
    number of its glyphs and its first occurrence. *)
Definition rows_ok (v : env) (ts : list (nat * list glyph)) (rows : list row) : Prop :=
  NoDup (map r_font rows) /\
  (forall f, In f (map r_font rows) <-> In f (map fst ts)) /\
  (forall r, In r rows ->
     r_uses r = N.of_nat (length (glyphs_of (r_font r) ts)) /\
     r_first r = occurs v (r_font r) ts).

(** The files are right: a row points to the file of its font, and the list
    has the files of the fonts, each once. *)
Definition files_ok (v : env) (rows : list row) (files : list nat) : Prop :=
  (forall r, In r rows ->
     match r_source r with
     | Some n => exists x, font_source v (r_font r) = Some x /\ nth_error files n = Some x
     | None => font_source v (r_font r) = None
     end) /\
  NoDup files /\
  (forall x, In x files <-> exists r, In r rows /\ font_source v (r_font r) = Some x).
