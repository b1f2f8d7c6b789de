(** Jumps between the rendered document and the source:
    crates/tinymist-query/src/jump.rs. *)
From Coq Require Import List ZArith NArith Bool.
Import ListNotations.
Open Scope Z_scope.

(** Coordinates; the lengths of typst are floating point numbers, here they are
    whole numbers of some unit.  crates/tinymist-query/src/jump.rs:21,24. *)
Definition point := (Z * Z)%type.
(** crates/tinymist-query/src/jump.rs:38,175 *)
Definition plus_p (a b : point) : point := (fst a + fst b, snd a + snd b).
(** crates/tinymist-query/src/jump.rs:38 *)
Definition minus_p (a b : point) : point := (fst a - fst b, snd a - snd b).

(** Spans are numbers that are not zero; the file is in the upper 16 of 64 bits,
    0 if there is none.  crates/tinymist-query/src/jump.rs:53,186-194. *)
Definition span := N.
(** [Span::id], crates/tinymist-query/src/jump.rs:53,186. *)
Definition id (s : span) : option N := let n := N.div s (2 ^ 48) in if N.eqb n 0 then None else Some n.
(** crates/tinymist-query/src/jump.rs:186 *)
Definition id_eqb (a b : option N) : bool :=
  match a, b with Some x, Some y => N.eqb x y | None, None => true | _, _ => false end.

(** A glyph: [advance] is its width at the size of the text, [count] the length
    of its range.  crates/tinymist-query/src/jump.rs:44-59,180-201. *)
Record glyph := { advance : Z; gspan : span; goff : nat; count : nat }.

(** The transformation of a group, by whole factors; no function of
    jump.rs reads it.  crates/tinymist-query/src/jump.rs:37,173. *)
Record transform := { sx : Z; ky : Z; kx : Z; sy : Z; tx : Z; ty : Z }.

(** Frames with the items told apart.
    crates/tinymist-query/src/jump.rs:24-87,171-179. *)
Inductive frame := Frame (items : list (point * item))
(** crates/tinymist-query/src/jump.rs:24-87,171-179 *)
with item :=
| Group (t : transform) (f : frame)
| Text (size : Z) (glyphs : list glyph)
| Rect (size : point) (s : span)
| Image (size : point) (s : span)
| Link (size : point)
| Other.

(** crates/tinymist-query/src/jump.rs:210-212 *)
Definition in_rect (pos size click : point) : bool :=
  (fst pos <=? fst click) && (fst click <=? fst pos + fst size) && (snd pos <=? snd click) && (snd click <=? snd pos + snd size).

(** What the search does at an item: go on, leave this frame without a result
    (by [?]), or leave it with one.  crates/tinymist-query/src/jump.rs:34-91. *)
Inductive step := Pass | Dead | Hit (s : span) (off : nat).

(** The texts: whether the node of a span is text ([None]: the file or the node
    cannot be found).  crates/tinymist-query/src/jump.rs:54-56. *)
Definition nodes := span -> option bool.

(** The glyphs of a text from the one at [pos].
    crates/tinymist-query/src/jump.rs:43-72. *)
Fixpoint text_step (w : nodes) (size : Z) (pos click : point) (gs : list glyph) : step :=
  match gs with
  | [] => Pass
  | g :: gs' =>
      let next := text_step w size (fst pos + advance g, snd pos) click gs' in
      if in_rect (fst pos, snd pos - size) (advance g, size) click
      then match id (gspan g) with
           | None => text_step w size pos click gs'
           | Some _ =>
               match w (gspan g) with
               | None => Dead
               | Some t => Hit (gspan g) (if t && (advance g <? 2 * (fst click - fst pos)) then goff g + count g else goff g)
               end
           end
      else next
  end.

(** crates/tinymist-query/src/jump.rs:24-31 *)
Fixpoint linked (click : point) (l : list (point * item)) : bool :=
  match l with
  | [] => false
  | (pos, Link size) :: l' => in_rect pos size click || linked click l'
  | _ :: l' => linked click l'
  end.

(** [jump_from_click]; both parts of the result are the same.  The items are
    searched from the last to the first.
    crates/tinymist-query/src/jump.rs:18-94. *)
Fixpoint from_click (w : nodes) (f : frame) (click : point) {struct f} : option (span * nat) :=
  match f with
  | Frame l =>
      if linked click l then None
      else
        match (fix last (l : list (point * item)) : step :=
                 match l with
                 | [] => Pass
                 | (pos, i) :: l' =>
                     match last l' with
                     | Pass =>
                         match i with
                         | Group _ f' => match from_click w f' (minus_p click pos) with Some (s, o) => Hit s o | None => Pass end
                         | Text size gs => text_step w size pos click gs
                         | Rect size s => if in_rect pos size click then Hit s 0 else Pass
                         | Image size s => if in_rect pos size click then Hit s 0 else Pass
                         | Link _ | Other => Pass
                         end
                     | r => r
                     end
                 end) l with
        | Hit s o => Some (s, o)
        | _ => None
        end
  end.

(** * From the source to the document *)

(** [abs_diff], crates/tinymist-query/src/jump.rs:194. *)
Definition abs_diff (a b : N) : N := if N.leb a b then (b - a)%N else (a - b)%N.

(** The closest so far: [min_dis] and [res].
    crates/tinymist-query/src/jump.rs:134-136,170. *)
Record best := { dis : N; place : point }.

(** The glyphs of a text, crates/tinymist-query/src/jump.rs:180-201. *)
Fixpoint find_text (s : span) (pos : point) (gs : list glyph) (b : best) : option point * best :=
  match gs with
  | [] => (None, b)
  | g :: gs' =>
      if N.eqb (gspan g) s then (Some pos, b)
      else
        let d := abs_diff (gspan g) s in
        let b' := if id_eqb (id (gspan g)) (id s) && N.ltb d (dis b) then {| dis := d; place := pos |} else b in
        find_text s (fst pos + advance g, snd pos) gs' b'
  end.

(** [find_in_frame], crates/tinymist-query/src/jump.rs:170-206. *)
Fixpoint find_frame (s : span) (f : frame) (b : best) {struct f} : option point * best :=
  match f with
  | Frame l =>
      (fix go (l : list (point * item)) (b : best) : option point * best :=
         match l with
         | [] => (None, b)
         | (pos, i) :: l' =>
             match i with
             | Group _ f' =>
                 match find_frame s f' b with
                 | (Some p, b') => (Some (plus_p p pos), b')
                 | (None, b') => go l' b'
                 end
             | Text _ gs =>
                 match find_text s pos gs b with
                 | (Some p, b') => (Some p, b')
                 | (None, b') => go l' b'
                 end
             | _ => go l' b
             end
         end) l b
  end.

(** The loop over the pages: [idx] the index of the first; the page of the
    closest, the closest, the exact positions.
    crates/tinymist-query/src/jump.rs:130-153. *)
Fixpoint pages (s : span) (idx : nat) (ps : list frame) (pg : nat) (b : best) : nat * best * list (nat * point) :=
  match ps with
  | [] => (pg, b, [])
  | p :: ps' =>
      let '(r, b') := find_frame s p b in
      let pg' := if N.eqb (dis b') (dis b) then pg else idx in
      let '(pg'', b'', l) := pages s (S idx) ps' pg' b' in
      (pg'', b'', match r with Some q => (S idx, q) :: l | None => l end)
  end.

(** [u64::MAX], crates/tinymist-query/src/jump.rs:136. *)
Definition MAX : N := (2 ^ 64 - 1)%N.

(** The document: pages, or not paged.  crates/tinymist-query/src/jump.rs:126-127,165. *)
Inductive document := Paged (ps : list frame) | Html.

(** [jump_from_cursor]; the leaf at the cursor is given: whether it is text, and
    its span.  crates/tinymist-query/src/jump.rs:97-167. *)
Definition from_cursor (d : document) (leaf : option (bool * span)) : list (nat * point) :=
  match leaf with
  | Some (true, s) =>
      match d with
      | Paged ps =>
          match pages s 0 ps 0 {| dis := MAX; place := (0, 0) |} with
          | (pg, b, []) => if N.eqb (dis b) MAX then [] else [(S pg, place b)]
          | (_, _, l) => l
          end
      | Html => []
      end
  | _ => []
  end.
