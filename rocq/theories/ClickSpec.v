(** What a click or a cursor should find, stated without the model's helpers. *)
From Coq Require Import List ZArith NArith Bool.
From Verif Require Import ClickModel.
Import ListNotations.
Open Scope Z_scope.

(** On a box. *)
Definition on (pos size c : point) : Prop := fst pos <= fst c <= fst pos + fst size /\ snd pos <= snd c <= snd pos + snd size.

(** Of a file: the number of the file is above the 48 lower bits. *)
Definition of_file (s : span) : Prop := (2 ^ 48 <= s)%N.
Definition same_file (a b : span) : Prop := exists n, (n * 2 ^ 48 <= a < (n + 1) * 2 ^ 48)%N /\ (n * 2 ^ 48 <= b < (n + 1) * 2 ^ 48)%N.

(** ** Clicks, exactly as they are answered *)

Inductive outcome := Passes | Ends | Gives (s : span) (o : nat).

(** The glyph that is looked at after some: a glyph under the click that is of no
    file does not move on. *)
Inductive reached (size y : Z) (c : point) : Z -> list glyph -> Z -> list glyph -> Prop :=
| reached_here x gs : reached size y c x gs x gs
| reached_over x g gs x' r : ~ on (x, y - size) (advance g, size) c -> reached size y c (x + advance g) gs x' r -> reached size y c x (g :: gs) x' r
| reached_stuck x g gs x' r : on (x, y - size) (advance g, size) c -> ~ of_file (gspan g) -> reached size y c x gs x' r -> reached size y c x (g :: gs) x' r.

(** The offset within the span: behind the glyph if it is text and the click is
    in its right half. *)
Definition half (w : nodes) (c : point) (x : Z) (g : glyph) (o : nat) : Prop :=
  (w (gspan g) = Some true /\ advance g < 2 * (fst c - x) /\ o = (goff g + count g)%nat) \/
  (w (gspan g) = Some true /\ 2 * (fst c - x) <= advance g /\ o = goff g) \/ (w (gspan g) = Some false /\ o = goff g).

Inductive answers (w : nodes) : frame -> point -> option (span * nat) -> Prop :=
| ans_link l c pos size : In (pos, Link size) l -> on pos size c -> answers w (Frame l) c None
| ans_none l c : (forall pos size, In (pos, Link size) l -> ~ on pos size c) ->
    (forall pos i, In (pos, i) l -> does w pos i c Passes) -> answers w (Frame l) c None
| ans_end l c a pos i b : (forall pos size, In (pos, Link size) l -> ~ on pos size c) -> l = a ++ (pos, i) :: b ->
    (forall pos i, In (pos, i) b -> does w pos i c Passes) -> does w pos i c Ends -> answers w (Frame l) c None
| ans_give l c a pos i b s o : (forall pos size, In (pos, Link size) l -> ~ on pos size c) -> l = a ++ (pos, i) :: b ->
    (forall pos i, In (pos, i) b -> does w pos i c Passes) -> does w pos i c (Gives s o) -> answers w (Frame l) c (Some (s, o))
with does (w : nodes) : point -> item -> point -> outcome -> Prop :=
| does_group pos t f c s o : answers w f (fst c - fst pos, snd c - snd pos) (Some (s, o)) -> does w pos (Group t f) c (Gives s o)
| does_no_group pos t f c : answers w f (fst c - fst pos, snd c - snd pos) None -> does w pos (Group t f) c Passes
| does_no_text pos size gs c x : reached size (snd pos) c (fst pos) gs x [] -> does w pos (Text size gs) c Passes
| does_lost pos size gs c x g r : reached size (snd pos) c (fst pos) gs x (g :: r) -> on (x, snd pos - size) (advance g, size) c ->
    of_file (gspan g) -> w (gspan g) = None -> does w pos (Text size gs) c Ends
| does_text pos size gs c x g r o : reached size (snd pos) c (fst pos) gs x (g :: r) -> on (x, snd pos - size) (advance g, size) c ->
    of_file (gspan g) -> half w c x g o -> does w pos (Text size gs) c (Gives (gspan g) o)
| does_rect pos size s c : on pos size c -> does w pos (Rect size s) c (Gives s 0)
| does_no_rect pos size s c : ~ on pos size c -> does w pos (Rect size s) c Passes
| does_image pos size s c : on pos size c -> does w pos (Image size s) c (Gives s 0)
| does_no_image pos size s c : ~ on pos size c -> does w pos (Image size s) c Passes
| does_link pos size c : does w pos (Link size) c Passes
| does_other pos c : does w pos Other c Passes.

(** ** What is under a point of the page *)

Definition sum_advance (gs : list glyph) : Z := fold_right (fun g z => advance g + z) 0 gs.

(** [c] of the outer frame is [c'] of the group. *)
Definition inward (pos : point) (t : transform) (c c' : point) : Prop :=
  fst c = fst pos + sx t * fst c' + kx t * snd c' + tx t /\ snd c = snd pos + ky t * fst c' + sy t * snd c' + ty t.

Inductive under (w : nodes) : frame -> point -> span -> nat -> Prop :=
| under_glyph l c pos size a g b o : In (pos, Text size (a ++ g :: b)) l ->
    on (fst pos + sum_advance a, snd pos - size) (advance g, size) c -> half w c (fst pos + sum_advance a) g o -> under w (Frame l) c (gspan g) o
| under_rect l c pos size s : In (pos, Rect size s) l -> on pos size c -> under w (Frame l) c s 0
| under_image l c pos size s : In (pos, Image size s) l -> on pos size c -> under w (Frame l) c s 0
| under_group l c pos t f c' s o : In (pos, Group t f) l -> inward pos t c c' -> under w f c' s o -> under w (Frame l) c s o.

(** Frames without transformations, all of whose glyphs are of files. *)
Definition no_move (t : transform) : Prop := sx t = 1 /\ ky t = 0 /\ kx t = 0 /\ sy t = 1 /\ tx t = 0 /\ ty t = 0.
Inductive straight : frame -> Prop :=
| straight_frame l : (forall pos t f, In (pos, Group t f) l -> no_move t /\ straight f) -> straight (Frame l).
Inductive sourced : frame -> Prop :=
| sourced_frame l : (forall pos t f, In (pos, Group t f) l -> sourced f) ->
    (forall pos size gs g, In (pos, Text size gs) l -> In g gs -> of_file (gspan g)) -> sourced (Frame l).
(** Without links. *)
Inductive linkless : frame -> Prop :=
| linkless_frame l : (forall pos t f, In (pos, Group t f) l -> linkless f) -> (forall pos size, ~ In (pos, Link size) l) -> linkless (Frame l).

(** ** The glyphs of a page, in order: the span, the place in the innermost
    frame, and the place on the page (transformations aside) *)

Fixpoint line (pos : point) (gs : list glyph) : list (span * point * point) :=
  match gs with [] => [] | g :: gs' => (gspan g, pos, pos) :: line (fst pos + advance g, snd pos) gs' end.
Fixpoint glyphs_of (f : frame) : list (span * point * point) :=
  match f with
  | Frame l =>
      flat_map (fun x => match snd x with
                         | Group _ f' => map (fun g => (fst (fst g), snd (fst g), (fst (snd g) + fst (fst x), snd (snd g) + snd (fst x)))) (glyphs_of f')
                         | Text _ gs => line (fst x) gs
                         | _ => []
                         end) l
  end.

(** The first glyph of a span on a page. *)
Definition shows (s : span) (f : frame) (p : point) : Prop :=
  exists a b q, glyphs_of f = a ++ (s, q, p) :: b /\ forall x, In x a -> fst (fst x) <> s.
Definition lacks (s : span) (f : frame) : Prop := forall x, In x (glyphs_of f) -> fst (fst x) <> s.

Inductive hits (s : span) : nat -> list frame -> list (nat * point) -> Prop :=
| hits_nil n : hits s n [] []
| hits_page n f fs p l : shows s f p -> hits s (S n) fs l -> hits s n (f :: fs) ((n, p) :: l)
| hits_skip n f fs l : lacks s f -> hits s (S n) fs l -> hits s n (f :: fs) l.

(** All glyphs with the numbers of their pages. *)
Fixpoint paged (n : nat) (fs : list frame) : list (nat * (span * point * point)) :=
  match fs with [] => [] | f :: fs' => map (pair n) (glyphs_of f) ++ paged (S n) fs' end.

Definition gap (a b : span) : N := N.max (a - b) (b - a).

(** The first of the closest glyphs of the same file. *)
Definition closest (s : span) (l : list (nat * (span * point * point))) (n : nat) (q : point) : Prop :=
  exists a b g p, l = a ++ (n, (g, q, p)) :: b /\ same_file g s /\
    (forall m g' q' p', In (m, (g', q', p')) a -> same_file g' s -> (gap g s < gap g' s)%N) /\
    (forall m g' q' p', In (m, (g', q', p')) b -> same_file g' s -> (gap g s <= gap g' s)%N).

(** Glyphs and texts of no negative size. *)
Inductive upright : frame -> Prop :=
| upright_frame l : (forall pos t f, In (pos, Group t f) l -> upright f) ->
    (forall pos size gs g, In (pos, Text size gs) l -> In g gs -> 0 <= size /\ 0 <= advance g) -> upright (Frame l).
(** Numbers of spans: 64 bits, not zero. *)
Definition valid_span (s : span) : Prop := (0 < s < 2 ^ 64)%N.
