(** What is expected of the actors of a preview (C47, C82, C83, C84). *)
From Coq Require Import List NArith Arith Bool.
From Verif Require Import AssocModel DigModel SpanModel PlaneModel.
Import ListNotations.
Open Scope nat_scope.

(** * The control plane *)
Definition begins (w s : list chr) : Prop := exists r, s = w ++ r.
(** What may end the loop: being asked to stop, the loss of the response channel, a click on the page that
    asks for a source location, or a request of the editor with what is not an id. *)
Definition ending (e : event) : Prop :=
  match e with
  | EStop | ERespClose => True
  | EFrame _ (TextIn s) => begins w_srclocation s
  | ECtlIn (ScrollBySpan str) => from_hex str = None
  | _ => False
  end.
(** The same without the click and the bad id: the connections end, or the preview is stopped. *)
Definition closing (e : event) : Prop := match e with EStop | ERespClose | ECtlClose | EBoxClose => True | _ => False end.
(** The response for a message of the mailbox. *)
Definition answer (m : ereq) : option resp :=
  match m with Jump i => Some (EditorScrollTo i) | OutlineOf o => Some (ROutline o) | StatusOf c => Some (RStatus c) | _ => None end.
Definition some_list {A} (x : option A) : list A := match x with Some a => [a] | None => [] end.
(** The requests of the editor to the renderers of the pages. *)
Definition forwarded (m : cmsg) : option rreq :=
  match m with ChangeCursor c => Some (Cursor c) | PanelScrollTo l => Some (SourceLoc l) | _ => None end.
(** A message is at the end of a queue. *)
Definition queued {A} (x : A) (c : chan A) : Prop := exists l, c_items c = l ++ [x].

(** * The requests of a page *)
(** The texts of the protocol, and what they ask for. *)
Inductive proper (O : oracles) : list chr -> action -> Prop :=
| pr_current : proper O w_current (ToRender FullLatest)
| pr_location i : proper O (w_srclocation ++ 32%N :: to_hex i) (ToEditor (JumpResolve (to_hex i)))
| pr_sync n : (n <= max64)%N -> proper O (w_outline ++ 44%N :: print_num 10 n) (ToPages (Viewport (n, (0, 0))))
| pr_sync_x n xs x : (n <= max64)%N -> o_float O xs = Some x -> ~ In 32%N xs -> ~ In 44%N xs ->
    proper O (w_outline ++ 44%N :: print_num 10 n ++ 32%N :: xs) (ToPages (Viewport (n, (x, 0))))
| pr_sync_xy n xs x ys y : (n <= max64)%N -> o_float O xs = Some x -> ~ In 32%N xs -> ~ In 44%N xs ->
    o_float O ys = Some y -> ~ In 32%N ys -> ~ In 44%N ys ->
    proper O (w_outline ++ 44%N :: print_num 10 n ++ 32%N :: xs ++ 32%N :: ys) (ToPages (Viewport (n, (x, y))))
| pr_path js p : o_path O js = Some p -> ~ In 32%N js -> proper O (w_srcpath ++ 32%N :: js) (ToRender (ElemPath p))
| pr_point js p : o_loc O js = Some p -> ~ In 32%N js -> proper O (w_srcpoint ++ 32%N :: js) (ToRender (FrameLoc p)).
(** The texts that are not in the protocol at all. *)
Definition foreign (s : list chr) : Prop :=
  s <> w_current /\ ~ begins w_srclocation s /\ ~ begins w_outline s /\ ~ begins w_srcpath s /\ ~ begins w_srcpoint s.
Definition live (s : st) (p : nat) : bool := match s_pages s p with Some g => pg_live g | None => false end.

(** * What a page shows *)
Definition frame_doc (f : frame_out) : option nat := match f with Frame _ d => Some d | _ => None end.
(** The document of the last frame. *)
Fixpoint last_doc (l : list frame_out) : option nat :=
  match l with [] => None | f :: l => match last_doc l with Some d => Some d | None => frame_doc f end end.
Definition shown (s : st) (p : nat) : option nat := match s_pages s p with Some g => last_doc (pg_out g) | None => None end.
(** The last document that was compiled and taken. *)
Definition latest (s : st) : option nat := match s_view s with Some x => x | None => None end.
(** Nothing is left to be done for the page. *)
Definition settled (s : st) (p : nat) : Prop :=
  ~ In SendIncremental (s_todo s) /\
  exists g, s_pages s p = Some g /\ pg_live g = true /\ c_items (pg_rq g) = [] /\ c_lagged (pg_rq g) = false
            /\ pg_phase g = Idle /\ pg_svg g = [].
(** The page or the watcher asks for the document to be shown. *)
Definition signal (s : st) (e : event) : Prop :=
  match e with
  | EFrame q (TextIn t) => t = w_current /\ live s q = true
  | EFlush => exists l, s_todo s = SendIncremental :: l
  | _ => False
  end.
(** The renderer of [p] answers a full render with a document that is not the latest. *)
Definition stale_draw (s : st) (p : nat) : Prop :=
  exists g c, s_pages s p = Some g /\ pg_phase g = Draw true /\ pg_cur g = Some c /\ latest s <> None /\ latest s <> Some c.
(** Whether a step draws for [p]. *)
Definition draws (s : st) (p : nat) (e : event) : bool :=
  match e with
  | EDraw q => (q =? p) && match s_pages s p with Some g => pg_rlive g && match pg_phase g with Draw _ => true | _ => false end | None => false end
  | _ => false
  end.
(** The last drawing for [p] in a history was stale ([b]: if there is none). *)
Fixpoint last_stale (P : params) (s : st) (es : list event) (p : nat) (b : Prop) : Prop :=
  match es with [] => b | e :: es => last_stale P (step P s e) es p (if draws s p e then stale_draw s p else b) end.

(** * The data plane *)
(** The time since the last page arrived. *)
Fixpoint since_arrival (l : list devent) (t : N) : N :=
  match l with [] => t | DTime ms :: l => since_arrival l (t + ms) | DAccept :: l => since_arrival l 0 | _ :: l => since_arrival l t end%N.
