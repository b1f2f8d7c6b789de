(** Theorems about jumps between preview and source (C42, C80). *)
From Coq Require Import List Arith NArith Bool Lia.
From Verif Require Import TextModel TextSpec TextProof JumpModel JumpSpec JumpProof.
Import ListNotations.

(** C42: the range reported for a selection is ordered. *)
Theorem C42_ordered : forall w s so e eo i x y, nodes_ok w -> resolve_span_range w s so e eo = Some i -> j_start i = Some x -> j_end i = Some y -> before x y.
Proof. exact range_ordered. Qed.
Print Assumptions C42_ordered.
(** C42: if the element at the end of the selection is known, there is a range, in its file and
    within its bounds. *)
Theorem C42_within : forall w s so e eo path t a b, nodes_ok w -> w e = Some (path, t, a, b) ->
  exists i x y u v, resolve_span_range w s so e eo = Some i /\ j_path i = path /\ j_start i = Some x /\ j_end i = Some y /\
    resolve_off t a = Some u /\ resolve_off t b = Some v /\ before u x /\ before x y /\ before y v.
Proof. exact range_within. Qed.
Print Assumptions C42_within.
(** C42: positions are lines and columns of the text. *)
Theorem C42_at : forall t p s, t = p ++ s -> exists x, resolve_off t (len8 p) = Some x /\ at_ t p x.
Proof. exact off_at. Qed.
Print Assumptions C42_at.
(** C42: a selection [m] within one element is reported exactly. *)
Theorem C42_exact : forall w s path t p q m z k so eo, w s = Some (path, t, len8 p, len8 (p ++ q ++ m ++ z)) -> t = p ++ q ++ m ++ z ++ k -> z <> [] -> so = len8 q -> eo = len8 (q ++ m) ->
  exists x y, resolve_span_range w s so s eo = Some (mkInfo path (Some x) (Some y)) /\ resolve_off t (len8 (p ++ q)) = Some x /\ resolve_off t (len8 (p ++ q ++ m)) = Some y.
Proof. exact range_exact. Qed.
Print Assumptions C42_exact.
(** C42: if the start is unknown or in another file, the range goes from the end of the selection to
    the end of the element. *)
Theorem C42_other : forall w s so e path t p q m k, w e = Some (path, t, len8 p, len8 (p ++ q ++ m)) -> t = p ++ q ++ m ++ k -> m <> [] -> (forall path' t' a b, w s = Some (path', t', a, b) -> path' <> path) ->
  exists x v, resolve_span_range w s so e (len8 q) = Some (mkInfo path (Some x) (Some v)) /\ resolve_off t (len8 (p ++ q)) = Some x /\ resolve_off t (len8 (p ++ q ++ m)) = Some v.
Proof. exact range_other. Qed.
Print Assumptions C42_other.
(** C42: if the end is unknown, the range goes from the start to the end of its element. *)
Theorem C42_lost : forall w s e eo path t p q m k, w e = None -> w s = Some (path, t, len8 p, len8 (p ++ q ++ m)) -> t = p ++ q ++ m ++ k -> m <> [] ->
  exists x v, resolve_span_range w s (len8 q) e eo = Some (mkInfo path (Some x) (Some v)) /\ resolve_off t (len8 (p ++ q)) = Some x /\ resolve_off t (len8 (p ++ q ++ m)) = Some v.
Proof. exact range_lost. Qed.
Print Assumptions C42_lost.
(** "ab", newline, "c", e acute, "de": nodes are the whole text (1), the second line (2) and one
    elsewhere (3). *)
Definition jt : text := [97; 98; 10; 99; 233; 100; 101]%N.
Definition jw : world := fun sp => match sp with 1 => Some (7, jt, 0, 8) | 2 => Some (7, jt, 3, 8) | 3 => Some (9, jt, 0, 2) | _ => None end.
Lemma jw_ok : nodes_ok jw.
Proof.
  intros [|[|[|[|sp]]]] path t a b H; try discriminate; cbn in H; injection H as <- <- <- <-.
  - exists [], jt, []. repeat split.
  - exists [97; 98; 10]%N, [99; 233; 100; 101]%N, []. repeat split.
  - exists [], [97; 98]%N, [10; 99; 233; 100; 101]%N. repeat split.
Qed.
(** The selection is exact; out of order it is turned round; the start is cut to the element of the
    end; a start elsewhere is ignored. *)
Example C42_nonvacuous : nodes_ok jw /\ resolve_span_range jw 1 1 1 6 = Some (mkInfo 7 (Some (0, 1)) (Some (1, 2))) /\
  resolve_span_range jw 1 6 1 1 = Some (mkInfo 7 (Some (0, 1)) (Some (1, 2))) /\ resolve_span_range jw 1 1 2 3 = Some (mkInfo 7 (Some (1, 0)) (Some (1, 2))) /\
  resolve_span_range jw 3 1 2 3 = Some (mkInfo 7 (Some (1, 2)) (Some (1, 4))) /\ resolve_span_range jw 2 1 0 3 = Some (mkInfo 7 (Some (1, 1)) (Some (1, 4))).
Proof. split; [exact jw_ok|]. repeat split. Qed.

(** C80: the position shown to the client is the one the client means exactly if the line has no
    characters beyond the basic plane before it. *)
Theorem C80_shown : forall t x p s, plain t -> client_at t x p s -> (resolve_off t (len8 p) = Some (p_line x, p_char x) <-> bmp_line p x).
Proof. exact shown_exact. Qed.
Print Assumptions C80_shown.
(** C80: a cursor with no such character before it in its line is found. *)
Theorem C80_cursor : forall t x p s, plain t -> client_at t x p s -> bmp_line p x -> cursor_offset t x = Some (len8 p).
Proof. exact cursor_exact. Qed.
Print Assumptions C80_cursor.
(** C80: a selection within an element is selected in the client. *)
Theorem C80_selection : forall w s path t p q m z k x y, w s = Some (path, t, len8 p, len8 (p ++ q ++ m ++ z)) -> z <> [] -> plain t ->
  client_at t x (p ++ q) (m ++ z ++ k) -> client_at t y (p ++ q ++ m) (z ++ k) -> bmp_line (p ++ q) x -> bmp_line (p ++ q ++ m) y ->
  exists i, resolve_span_range w s (len8 q) s (len8 (q ++ m)) = Some i /\ j_path i = path /\ selection i = Some (mkRange x y).
Proof. exact selection_exact. Qed.
Print Assumptions C80_selection.
(** C80: of half a range the known end is shown. *)
Theorem C80_half : forall path x, selection (mkInfo path (Some x) None) = Some (mkRange (mkPos (fst x) (snd x)) (mkPos (fst x) (snd x))) /\ selection (mkInfo path None (Some x)) = selection (mkInfo path (Some x) None).
Proof. intros. split; reflexivity. Qed.
Print Assumptions C80_half.
(** C80 fails after a character beyond the basic plane: the selection is shown too far left, and a
    cursor is taken too far right. *)
Theorem C80_astral_refuted : exists w s path t p m k x y i o, w s = Some (path, t, 0, len8 t) /\ plain t /\ client_at t x p (m ++ k) /\ client_at t y (p ++ m) k /\
  resolve_span_range w s (len8 p) s (len8 (p ++ m)) = Some i /\ selection i <> Some (mkRange x y) /\ cursor_offset t x = Some o /\ o <> len8 p.
Proof.
  exists (fun _ => Some (7, [129402; 97; 98; 99]%N, 0, 7)), 1, 7, [129402; 97; 98; 99]%N, [129402]%N, [97]%N, [98; 99]%N, (mkPos 0 2), (mkPos 0 3), (mkInfo 7 (Some (0, 1)) (Some (0, 2))), 5.
  split; [reflexivity|]. split; [intros c [<-|[<-|[<-|[<-|[]]]]]; reflexivity|]. split.
  { split; [reflexivity|]. exists [129402]%N, [97; 98; 99]%N. repeat split. intros c [<-|[]]. reflexivity. }
  split. { split; [reflexivity|]. exists [129402; 97]%N, [98; 99]%N. repeat split. intros c [<-|[<-|[]]]; reflexivity. }
  split; [reflexivity|]. split; [discriminate|]. split; [reflexivity|]. cbn. discriminate.
Qed.
Print Assumptions C80_astral_refuted.
Example C80_nonvacuous : plain jt /\ client_at jt (mkPos 1 1) [97; 98; 10; 99]%N [233; 100; 101]%N /\ client_at jt (mkPos 1 2) [97; 98; 10; 99; 233]%N [100; 101]%N /\
  bmp_line [97; 98; 10; 99; 233]%N (mkPos 1 2) /\ option_map selection (resolve_span_range jw 1 4 1 6) = Some (Some (mkRange (mkPos 1 1) (mkPos 1 2))) /\ cursor_offset jt (mkPos 1 2) = Some 6.
Proof.
  split; [intros c [<-|[<-|[<-|[<-|[<-|[<-|[<-|[]]]]]]]]; reflexivity|]. split.
  { split; [reflexivity|]. exists [99]%N, [233; 100; 101]%N. repeat split. intros c [<-|[]]. reflexivity. }
  split. { split; [reflexivity|]. exists [99; 233]%N, [100; 101]%N. repeat split. intros c [<-|[<-|[]]]; reflexivity. }
  split. { exists [97; 98; 10]%N, [99; 233]%N. repeat split. intros c [<-|[<-|[]]]; reflexivity. }
  split; reflexivity.
Qed.
