(** Model of jumps from the preview to the source and back:
    crates/typst-preview/src/actor/render.rs (resolve_span_range),
    crates/tinymist/src/tool/preview/compile.rs (resolve_span, resolve_source_span) and
    crates/tinymist/src/tool/preview.rs (send_show_document). *)
From Coq Require Import List Arith Bool.
From Verif Require Import TextModel.
Import ListNotations.

(** crates/typst-preview/src/lib.rs:316-321 [DocToSrcJumpInfo]; the path is a number. *)
Record info := mkInfo { j_path : nat; j_start : option (nat * nat); j_end : option (nat * nat) }.
(** The order of pairs (standard library), render.rs:193,216,239. *)
Definition pos_le (x y : nat * nat) : bool := (fst x <? fst y) || ((fst x =? fst y) && (snd x <=? snd y)).
(** [Ord::max], render.rs:239. *)
Definition pos_max (x y : nat * nat) : nat * nat := if pos_le x y then y else x.
(** [Ord::min], render.rs:239. *)
Definition pos_min (x y : nat * nat) : nat * nat := if pos_le x y then x else y.
(** [Option::zip] (standard library), compile.rs:180. *)
Definition zip {A B} (x : option A) (y : option B) : option (A * B) := match x, y with Some a, Some b => Some (a, b) | _, _ => None end.
(** [Option::or] (standard library), render.rs:229. *)
Definition or_ {A} (x y : option A) : option A := match x with Some a => Some a | None => y end.
(** Where a span is: path, text of the file, and the range of the node (typst's [Source::find],
    compile.rs:182-183, and the path at compile.rs:191). *)
Definition world := nat -> option (nat * text * nat * nat).
(** compile.rs:179-180 [resolve_off]. *)
Definition resolve_off (t : text) (off : nat) : option (nat * nat) := zip (byte_to_line t off) (byte_to_column t off).
(** compile.rs:177-197 [resolve_span]. *)
Definition resolve_span (w : world) (sp : nat) (offset : option nat) : option info :=
  match w sp with
  | None => None
  | Some (path, t, a, b) =>
      let a' := match offset with Some off => if off <? b - a then a + off else a | None => a end in
      Some (mkInfo path (resolve_off t a') (resolve_off t b))
  end.
(** render.rs:189-206: combines start and end. *)
Definition combine (st ed : option info) : option info :=
  match st, ed with
  | Some st, Some ed =>
      if (j_path st =? j_path ed) && match j_start st, j_end st with Some x, Some y => pos_le x y | _, _ => false end
      then Some (mkInfo (j_path st) (j_start st) (j_start ed))
      else Some ed
  | Some i, None | None, Some i => Some i
  | None, None => None
  end.
(** render.rs:208-223: start and end in order. *)
Definition in_order (i : info) : info :=
  match zip (j_start i) (j_end i) with
  | Some (x, y) => if pos_le y x then mkInfo (j_path i) (j_end i) (j_start i) else i
  | None => i
  end.
(** render.rs:225-246: the range within the element. *)
Definition restrict (elem rng : option info) : option info :=
  match elem, rng with
  | Some e, Some r =>
      if j_path e =? j_path r then
        let es := or_ (j_start e) (j_end e) in let ee := or_ (j_end e) es in
        let rs := or_ (j_start r) (j_end r) in let re := or_ (j_end r) rs in
        match zip (zip (zip es rs) re) ee with
        | Some (u, iu, iv, v) => Some (mkInfo (j_path r) (Some (pos_min (pos_max iu u) v)) (Some (pos_min (pos_max iv u) v)))
        | None => Some r
        end
      else Some r
  | _, Some i | Some i, None => Some i
  | None, None => None
  end.
(** render.rs:182-247 [resolve_span_range], when there is a view. *)
Definition resolve_span_range (w : world) (s so e eo : nat) : option info :=
  let st := resolve_span w s (Some so) in let ed := resolve_span w e (Some eo) in let elem := resolve_span w e None in
  restrict elem (option_map in_order (combine st ed)).
(** preview.rs:617-629: the selection of [send_show_document] (numbers beyond u32 are not cut). *)
Definition selection (i : info) : option range :=
  match option_map (fun x => mkPos (fst x) (snd x)) (j_start i), option_map (fun x => mkPos (fst x) (snd x)) (j_end i) with
  | Some a, Some b => Some (mkRange a b)
  | Some a, None | None, Some a => Some (mkRange a a)
  | None, None => None
  end.
(** compile.rs:121-122,170: the offset of the client's cursor in the source. *)
Definition cursor_offset (t : text) (x : pos) : option nat := line_column_to_byte t (p_line x) (p_char x).
