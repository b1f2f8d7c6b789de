(** Model of the actors of one preview: crates/typst-preview/src/actor/editor.rs, actor/webview.rs,
    actor/render.rs and lib.rs, and the streams of crates/tinymist/src/tool/preview.rs:658-683. *)
From Coq Require Import List NArith Arith Bool.
From Verif Require Import AssocModel DigModel PageModel SpanModel.
Import ListNotations.
Open Scope nat_scope.

(** * Messages *)
(** actor/editor.rs:29-35 [CompileStatus]. *)
Inductive cstatus := Compiling | Success | Failure.
(** [DocumentPosition] (external), actor/webview.rs:29; the two [f32] stand as numbers. *)
Definition position := (N * (nat * nat))%type.
(** actor/editor.rs:37-44 [EditorActorRequest]; jumps and outlines stand as numbers. *)
Inductive ereq := Shutdown | JumpResolve (span : list chr) | Jump (i : nat) | OutlineOf (o : nat) | StatusOf (c : cstatus).
(** actor/editor.rs:119-136 [ControlPlaneMessage]; the payloads that are passed on stand as numbers. *)
Inductive cmsg := ChangeCursor (c : nat) | PanelScrollTo (l : nat) | PanelScrollBy (p : position)
  | ScrollBySpan (span : list chr) | SyncFiles (f : nat) | UpdateFiles (f : nat) | RemoveFiles (f : nat).
(** actor/editor.rs:138-149 [ControlPlaneResponse]. *)
Inductive resp := EditorScrollTo (i : nat) | SyncEditorChanges | RStatus (c : cstatus) | ROutline (o : nat).
(** actor/render.rs:19-28 [RenderActorRequest]. *)
Inductive rreq := FullLatest | Incremental | SpanRange (s : span) | ElemPath (p : nat) | FrameLoc (p : nat)
  | SourceLoc (l : nat) | Cursor (c : nat).
(** actor/webview.rs:16-22 [WebviewActorRequest]. *)
Inductive wreq := Viewport (p : position) | SrcToDoc (l : nat) | CursorPaths (l : nat).
(** The messages of a websocket (external), tool/preview.rs:676-680; [Other] is a ping, a pong or the
    closing. *)
Inductive frame_in := TextIn (s : list chr) | BinaryIn | Other | Broken.
(** What is sent to a page: actor/webview.rs:91-119,129,166 (the
    settings of lib.rs:103-114 are left out).  [Frame full d] is the
    document [d], whole or as a change to what the page has. *)
Inductive frame_out := Frame (full : bool) (d : nat) | ViewportOut (p : position) | JumpOut (l : nat) | PathsOut (l : nat) | ErrorOut.

(** * The requests of a page *)
(** [str::starts_with] (standard library), actor/webview.rs:135. *)
Fixpoint starts_with (w s : list chr) : bool :=
  match w, s with [], _ => true | a :: w, b :: s => (a =? b)%N && starts_with w s | _ :: _, [] => false end.
(** Equality of strings (standard library), actor/webview.rs:133. *)
Fixpoint same_text (a b : list chr) : bool :=
  match a, b with [], [] => true | x :: a, y :: b => (x =? y)%N && same_text a b | _, _ => false end.
(** "current", actor/webview.rs:133. *)
Definition w_current : list chr := [99; 117; 114; 114; 101; 110; 116]%N.
(** "srclocation", actor/webview.rs:135. *)
Definition w_srclocation : list chr := [115; 114; 99; 108; 111; 99; 97; 116; 105; 111; 110]%N.
(** "outline-sync", actor/webview.rs:142. *)
Definition w_outline : list chr := [111; 117; 116; 108; 105; 110; 101; 45; 115; 121; 110; 99]%N.
(** "srcpath", actor/webview.rs:151. *)
Definition w_srcpath : list chr := [115; 114; 99; 112; 97; 116; 104]%N.
(** "src-point", actor/webview.rs:159. *)
Definition w_srcpoint : list chr := [115; 114; 99; 45; 112; 111; 105; 110; 116]%N.
(** "unsupported message", tool/preview.rs:679. *)
Definition w_unsupported : list chr :=
  [117; 110; 115; 117; 112; 112; 111; 114; 116; 101; 100; 32; 109; 101; 115; 115; 97; 103; 101]%N.
(** The parsers of the libraries: [f32::from_str] (actor/webview.rs:146-147), and serde on element paths and
    positions (actor/webview.rs:153,161). *)
Record oracles := mkO { o_float : list chr -> option nat; o_path : list chr -> option nat; o_loc : list chr -> option nat }.
(** What comes of a text: a request to the renderers, the editor actor or the pages, nothing, the end of
    the connection, or a panic; actor/webview.rs:133-169. *)
Inductive action := ToRender (r : rreq) | ToEditor (r : ereq) | ToPages (r : wreq) | Nothing | Close | Panic.
(** [.map(|s| s.parse().unwrap()).unwrap_or(0.)], actor/webview.rs:146-147; [None] is the panic. *)
Definition coord (O : oracles) (x : option (list chr)) : option nat := match x with None => Some 0 | Some s => o_float O s end.
(** actor/webview.rs:133-169. *)
Definition page_text (O : oracles) (s : list chr) : action :=
  if same_text s w_current then ToRender FullLatest
  else if starts_with w_srclocation s then
    match nth_error (split 32%N s) 1 with None => Panic | Some l => ToEditor (JumpResolve (trim l)) end
  else if starts_with w_outline s then
    match nth_error (split 44%N s) 1 with
    | None => Panic
    | Some l =>
        let l := split 32%N l in
        match parse_num 10%N max64 (nth 0 l []), coord O (nth_error l 1), coord O (nth_error l 2) with
        | Some p, Some x, Some y => ToPages (Viewport (p, (x, y)))
        | _, _, _ => Panic
        end
    end
  else if starts_with w_srcpath s then
    match nth_error (split 32%N s) 1 with
    | None => Panic
    | Some l => match o_path O l with Some p => ToRender (ElemPath p) | None => Nothing end
    end
  else if starts_with w_srcpoint s then
    match nth_error (split 32%N s) 1 with
    | None => Panic
    | Some l => match o_loc O l with Some p => ToRender (FrameLoc p) | None => Nothing end
    end
  else Close.
(** actor/webview.rs:123-132 after tool/preview.rs:676-680: all but texts and binaries are read as the
    text "unsupported message". *)
Definition page_frame (O : oracles) (f : frame_in) : action :=
  match f with
  | Broken | BinaryIn => Close
  | TextIn s => page_text O s
  | Other => page_text O w_unsupported
  end.

(** * Channels *)
(** A receiver of [tokio::sync::broadcast] (external; lib.rs:208,210): what it has not read, and whether
    something was overwritten. *)
Record chan (A : Type) := mkCh { c_items : list A; c_lagged : bool }.
Arguments mkCh {A}. Arguments c_items {A}. Arguments c_lagged {A}.
(** A new receiver (external), lib.rs:121,126,134. *)
Definition chan0 {A} : chan A := mkCh [] false.
(** [send] seen by one receiver (external), lib.rs:208,210: the oldest message is overwritten if the
    channel is full. *)
Definition cpush {A} (cap : nat) (c : chan A) (x : A) : chan A :=
  if length (c_items c) <? cap then mkCh (c_items c ++ [x]) (c_lagged c) else mkCh (tl (c_items c) ++ [x]) true.
(** lib.rs:208: the capacity of the channel to the renderers. *)
Definition render_cap : nat := 1024.
(** See [render_cap]; lib.rs:210. *)
Definition webview_cap : nat := 32.

(** * State *)
(** actor/render.rs:125-169 [RenderActor::run] and 332-363 [OutlineRenderActor::run]: waiting, reading
    the queue to empty, or about to read the document; with [has_full_render]. *)
Inductive phase := Idle | Drain (full : bool) | Draw (full : bool).
(** One connection with its webview actor (actor/webview.rs:40-51), its renderer (actor/render.rs:44-51)
    and its outline renderer (actor/render.rs:309-315).  [pg_cur] is the document the renderer packed last,
    [pg_out] is all that was sent to the page. *)
Record page := mkPg { pg_live : bool; pg_box : chan wreq; pg_svg : list frame_out; pg_out : list frame_out;
  pg_rlive : bool; pg_rq : chan rreq; pg_phase : phase; pg_cur : option nat;
  pg_olive : bool; pg_oq : chan rreq; pg_ophase : phase }.
(** lib.rs:96-151: a page that was just accepted. *)
Definition page0 : page := mkPg true chan0 [] [] true chan0 Idle None true chan0 Idle.
(** The editor actor: serving, out of its loop, out of its loop with the process
    (actor/editor.rs:260-263), or panicked. *)
Inductive estate := Serving | Stopped | Exited | Crashed.
(** lib.rs:430-442 [CompileWatcher::notify_compile] after writing the document: what it has yet to send. *)
Inductive todo := SendIncremental | SendStatus (c : cstatus).
(** The preview: the editor actor with its mailbox and connection (actor/editor.rs:108-117), the watcher
    and the document (lib.rs:393-399), the span interner, the pages, and all that was given to the server
    by actor/editor.rs:226-252.  The documents of a view stand as numbers. *)
Record st := mkSt { s_ed : estate; s_box : list ereq; s_boxopen : bool; s_ctl : list cmsg; s_ctlopen : bool;
  s_respopen : bool; s_resp : list resp; s_int : interner; s_view : option (option nat); s_todo : list todo;
  s_pages : nat -> option page; s_files : list cmsg }.
(** lib.rs:233-282 [build]: in standalone mode the editor is asked for its files first
    (actor/editor.rs:172-174). *)
Definition init (standalone : bool) : st :=
  mkSt Serving [] true [] true true (if standalone then [SyncEditorChanges] else []) interner0 None [] (fun _ => None) [].
(** Setters of [st], actor/editor.rs:108-117. *)
Definition set_ed x s := mkSt x (s_box s) (s_boxopen s) (s_ctl s) (s_ctlopen s) (s_respopen s) (s_resp s) (s_int s) (s_view s) (s_todo s) (s_pages s) (s_files s).
(** Setter, actor/editor.rs:110. *)
Definition set_box x s := mkSt (s_ed s) x (s_boxopen s) (s_ctl s) (s_ctlopen s) (s_respopen s) (s_resp s) (s_int s) (s_view s) (s_todo s) (s_pages s) (s_files s).
(** Setter, actor/editor.rs:49. *)
Definition set_ctl x s := mkSt (s_ed s) (s_box s) (s_boxopen s) x (s_ctlopen s) (s_respopen s) (s_resp s) (s_int s) (s_view s) (s_todo s) (s_pages s) (s_files s).
(** Setter, actor/editor.rs:48. *)
Definition set_resp x s := mkSt (s_ed s) (s_box s) (s_boxopen s) (s_ctl s) (s_ctlopen s) (s_respopen s) x (s_int s) (s_view s) (s_todo s) (s_pages s) (s_files s).
(** Setter, actor/editor.rs:48-49,110: which of the channels are open. *)
Definition set_open b c r s := mkSt (s_ed s) (s_box s) b (s_ctl s) c r (s_resp s) (s_int s) (s_view s) (s_todo s) (s_pages s) (s_files s).
(** Setter, actor/editor.rs:116. *)
Definition set_int x s := mkSt (s_ed s) (s_box s) (s_boxopen s) (s_ctl s) (s_ctlopen s) (s_respopen s) (s_resp s) x (s_view s) (s_todo s) (s_pages s) (s_files s).
(** Setter, lib.rs:396. *)
Definition set_view x s := mkSt (s_ed s) (s_box s) (s_boxopen s) (s_ctl s) (s_ctlopen s) (s_respopen s) (s_resp s) (s_int s) x (s_todo s) (s_pages s) (s_files s).
(** Setter, lib.rs:430-442. *)
Definition set_todo x s := mkSt (s_ed s) (s_box s) (s_boxopen s) (s_ctl s) (s_ctlopen s) (s_respopen s) (s_resp s) (s_int s) (s_view s) x (s_pages s) (s_files s).
(** Setter, lib.rs:96. *)
Definition set_pages x s := mkSt (s_ed s) (s_box s) (s_boxopen s) (s_ctl s) (s_ctlopen s) (s_respopen s) (s_resp s) (s_int s) (s_view s) (s_todo s) x (s_files s).
(** Setter, actor/editor.rs:109. *)
Definition set_files x s := mkSt (s_ed s) (s_box s) (s_boxopen s) (s_ctl s) (s_ctlopen s) (s_respopen s) (s_resp s) (s_int s) (s_view s) (s_todo s) (s_pages s) x.

(** * Sending *)
(** Whether the editor actor has its receivers, actor/editor.rs:108-117. *)
Definition serving (s : st) : bool := match s_ed s with Serving => true | _ => false end.
(** [editor_tx.send], actor/webview.rs:137: no effect once the actor is gone. *)
Definition to_editor (r : ereq) (s : st) : st := if serving s then set_box (s_box s ++ [r]) s else s.
(** [renderer_tx.send] at one page, actor/editor.rs:210, lib.rs:126,134: both actors of the page have a
    receiver. *)
Definition push_render (r : rreq) (g : page) : page :=
  mkPg (pg_live g) (pg_box g) (pg_svg g) (pg_out g)
    (pg_rlive g) (if pg_rlive g then cpush render_cap (pg_rq g) r else pg_rq g) (pg_phase g) (pg_cur g)
    (pg_olive g) (if pg_olive g then cpush render_cap (pg_oq g) r else pg_oq g) (pg_ophase g).
(** [renderer_tx.send], actor/editor.rs:210. *)
Definition to_render (r : rreq) (s : st) : st := set_pages (fun p => option_map (push_render r) (s_pages s p)) s.
(** [webview_tx.send] at one page, actor/webview.rs:150. *)
Definition push_web (r : wreq) (g : page) : page :=
  mkPg (pg_live g) (if pg_live g then cpush webview_cap (pg_box g) r else pg_box g) (pg_svg g) (pg_out g)
    (pg_rlive g) (pg_rq g) (pg_phase g) (pg_cur g) (pg_olive g) (pg_oq g) (pg_ophase g).
(** [webview_tx.send], actor/webview.rs:150. *)
Definition to_pages (r : wreq) (s : st) : st := set_pages (fun p => option_map (push_web r) (s_pages s p)) s.
(** One page changes; lib.rs:96. *)
Definition set_page (p : nat) (g : page) (s : st) : st := set_pages (upd (s_pages s) p (Some g)) s.

(** * The editor actor *)
(** actor/editor.rs:258-264: the end of the loop; the receivers go. *)
Definition leave (standalone : bool) (s : st) : st := set_ed (if standalone then Exited else Stopped) (set_box [] (set_ctl [] s)).
(** A panic in the task: the receivers go, actor/editor.rs:268. *)
Definition crash (s : st) : st := set_ed Crashed (set_box [] (set_ctl [] s)).
(** actor/editor.rs:266-284 [source_scroll_by_span]; [None] is the panic of debug_loc.rs:41-43. *)
Definition scroll_by_span (str : list chr) (s : st) : option st :=
  match span_by_str (s_int s) str with
  | None => None
  | Some UseAfterFree | Some (Found None) => Some s
  | Some (Found (Some sp)) => Some (to_render (SpanRange sp) s)
  end.
(** actor/editor.rs:94-101 [resp_ctl_plane]: whether it was sent. *)
Definition respond (r : resp) (s : st) : st * bool :=
  if s_respopen s then (set_resp (s_resp s ++ [r]) s, true) else (s, false).
(** actor/editor.rs:178-205: a message of the mailbox.  The state out of the loop is [leave]. *)
Definition serve_mail (standalone : bool) (m : ereq) (s : st) : st :=
  let answer r := let '(s, sent) := respond r s in if sent then s else leave standalone s in
  match m with
  | Shutdown => leave standalone s
  | Jump i => answer (EditorScrollTo i)
  | JumpResolve str => match scroll_by_span str s with None => crash s | Some s => leave standalone s end
  | StatusOf c => answer (RStatus c)
  | OutlineOf o => answer (ROutline o)
  end.
(** actor/editor.rs:206-254: a message of the editor. *)
Definition serve_ctl (m : cmsg) (s : st) : st :=
  match m with
  | ChangeCursor c => to_render (Cursor c) s
  | PanelScrollTo l => to_render (SourceLoc l) s
  | PanelScrollBy p => to_pages (Viewport p) s
  | ScrollBySpan str => match scroll_by_span str s with None => crash s | Some s => s end
  | SyncFiles _ | UpdateFiles _ | RemoveFiles _ => set_files (s_files s ++ [m]) s
  end.

(** * The renderer of a page *)
(** actor/render.rs:73-123 [process_message]: what comes of a request, given what the document and the
    renderer answer ([None]: nothing is found). *)
Definition process (r : rreq) (answer : option nat) (s : st) : st :=
  match answer with
  | None => s
  | Some a => match r with
      | SpanRange _ | ElemPath _ | FrameLoc _ => to_editor (Jump a) s
      | SourceLoc _ => to_pages (SrcToDoc a) s
      | Cursor _ => to_pages (CursorPaths a) s
      | FullLatest | Incremental => s
      end
  end.
(** actor/render.rs:30-42 [is_full_render]. *)
Definition is_full (r : rreq) : bool := match r with FullLatest => true | _ => false end.
(** The renderer of a page changes; actor/render.rs:44-51. *)
Definition set_r (q : chan rreq) (ph : phase) (g : page) : page :=
  mkPg (pg_live g) (pg_box g) (pg_svg g) (pg_out g) (pg_rlive g) q ph (pg_cur g) (pg_olive g) (pg_oq g) (pg_ophase g).
(** The renderer packs [d] and sends it, or is gone; actor/render.rs:154-166. *)
Definition set_draw (cur : option nat) (svg : list frame_out) (rlive : bool) (g : page) : page :=
  mkPg (pg_live g) (pg_box g) svg (pg_out g) rlive (pg_rq g) Idle cur (pg_olive g) (pg_oq g) (pg_ophase g).
(** actor/render.rs:126-140 and 142-144: [recv] from [Idle], [try_recv] from [Drain]; an overwritten
    message is reported first, and ends the second loop. *)
Definition render_read (p : nat) (answer : option nat) (s : st) : st :=
  match s_pages s p with
  | Some g =>
      if pg_rlive g then
        match pg_phase g with
        | Idle =>
            if c_lagged (pg_rq g) then set_page p (set_r (mkCh (c_items (pg_rq g)) false) (Drain false) g) s
            else match c_items (pg_rq g) with
                 | [] => s
                 | r :: q => process r answer (set_page p (set_r (mkCh q false) (Drain (is_full r)) g) s)
                 end
        | Drain full =>
            if c_lagged (pg_rq g) then set_page p (set_r (mkCh (c_items (pg_rq g)) false) (Draw full) g) s
            else match c_items (pg_rq g) with
                 | [] => set_page p (set_r (pg_rq g) (Draw full) g) s
                 | r :: q => process r answer (set_page p (set_r (mkCh q false) (Drain (full || is_full r)) g) s)
                 end
        | Draw _ => s
        end
      else s
  | None => s
  end.
(** The document, actor/render.rs:149. *)
Definition document (s : st) : option nat := match s_view s with Some (Some d) => Some d | _ => None end.
(** actor/render.rs:147-166.  [pack_current] packs the document packed last, [pack_delta] the given one
    (external). *)
Definition render_draw (p : nat) (s : st) : st :=
  match s_pages s p with
  | Some g =>
      match pg_rlive g, pg_phase g with
      | true, Draw full =>
          match document s with
          | None => set_page p (set_r (pg_rq g) Idle g) s
          | Some d =>
              let '(f, d) := if full then match pg_cur g with Some c => (true, c) | None => (false, d) end else (false, d) in
              if pg_live g then set_page p (set_draw (Some d) (pg_svg g ++ [Frame f d]) true g) s
              else set_page p (set_draw (Some d) (pg_svg g) false g) s
          end
      | _, _ => s
      end
  | None => s
  end.

(** * The outline of a page *)
(** The outline renderer of a page changes; actor/render.rs:309-315. *)
Definition set_o (olive : bool) (q : chan rreq) (ph : phase) (g : page) : page :=
  mkPg (pg_live g) (pg_box g) (pg_svg g) (pg_out g) (pg_rlive g) (pg_rq g) (pg_phase g) (pg_cur g) olive q ph.
(** actor/render.rs:333-348. *)
Definition outline_read (p : nat) (s : st) : st :=
  match s_pages s p with
  | Some g =>
      if pg_olive g then
        match pg_ophase g with
        | Idle => if c_lagged (pg_oq g) then set_page p (set_o true (mkCh (c_items (pg_oq g)) false) (Drain false) g) s
                  else match c_items (pg_oq g) with [] => s | _ :: q => set_page p (set_o true (mkCh q false) (Drain false) g) s end
        | Drain full =>
            if c_lagged (pg_oq g) then set_page p (set_o true (mkCh (c_items (pg_oq g)) false) (Draw full) g) s
            else match c_items (pg_oq g) with
                 | [] => set_page p (set_o true (pg_oq g) (Draw full) g) s
                 | _ :: q => set_page p (set_o true (mkCh q false) (Drain full) g) s
                 end
        | Draw _ => s
        end
      else s
  | None => s
  end.
(** actor/render.rs:351-372: the spans of the outline are interned anew; [o] is the outline,
    [spans] its spans. *)
Definition outline_draw (p o : nat) (spans : list span) (s : st) : st :=
  match s_pages s p with
  | Some g =>
      match pg_olive g, pg_ophase g with
      | true, Draw _ =>
          match document s with
          | None => set_page p (set_o true (pg_oq g) Idle g) s
          | Some _ =>
              let s' := set_int (irun (reset (s_int s)) (map Intern spans)) s in
              to_editor (OutlineOf o) (set_page p (set_o (serving s) (pg_oq g) Idle g) s')
          end
      | _, _ => s
      end
  | None => s
  end.

(** * The webview actor of a page *)
(** The webview actor changes; actor/webview.rs:40-51. *)
Definition set_w (live : bool) (box : chan wreq) (svg out : list frame_out) (g : page) : page :=
  mkPg live box svg out (pg_rlive g) (pg_rq g) (pg_phase g) (pg_cur g) (pg_olive g) (pg_oq g) (pg_ophase g).
(** actor/webview.rs:121-170: a frame from the page. *)
Definition web_frame (O : oracles) (p : nat) (f : frame_in) (s : st) : st :=
  match s_pages s p with
  | Some g =>
      if pg_live g then
        match page_frame O f with
        | ToRender r => to_render r s
        | ToEditor r => to_editor r s
        | ToPages r => to_pages r s
        | Nothing => s
        | Close => set_page p (set_w false chan0 [] (pg_out g ++ match f with Broken => [] | _ => [ErrorOut] end) g) s
        | Panic => set_page p (set_w false chan0 [] (pg_out g) g) s
        end
      else s
  | None => s
  end.
(** actor/webview.rs:24-38 and 93-114. *)
Definition web_out (r : wreq) : frame_out := match r with Viewport p => ViewportOut p | SrcToDoc l => JumpOut l | CursorPaths l => PathsOut l end.
(** actor/webview.rs:91-115: a message of the mailbox; overwritten ones are reported as an error, which the
    pattern of the branch passes over. *)
Definition web_mail (p : nat) (s : st) : st :=
  match s_pages s p with
  | Some g =>
      if pg_live g then
        if c_lagged (pg_box g) then set_page p (set_w true (mkCh (c_items (pg_box g)) false) (pg_svg g) (pg_out g) g) s
        else match c_items (pg_box g) with
             | [] => s
             | r :: q => set_page p (set_w true (mkCh q false) (pg_svg g) (pg_out g ++ [web_out r]) g) s
             end
      else s
  | None => s
  end.
(** actor/webview.rs:116-120: a packed document. *)
Definition web_svg (p : nat) (s : st) : st :=
  match s_pages s p with
  | Some g =>
      if pg_live g then
        match pg_svg g with [] => s | f :: q => set_page p (set_w true (pg_box g) q (pg_out g ++ [f]) g) s end
      else s
  | None => s
  end.

(** * The watcher *)
(** lib.rs:358-367 [CompileView]: the document, the status, and the signals of the compilation. *)
Record view := mkView { v_doc : option nat; v_status : cstatus; v_saved : bool; v_entry : bool }.
(** lib.rs:420-424 [notify_compile]: whether the view is taken, [on_save] being the refresh style. *)
Definition accepted (on_save : bool) (v : view) : bool := negb (negb (v_entry v) && (on_save && negb (v_saved v))).
(** lib.rs:412-444 [notify_compile] up to the first sending. *)
Definition notify (on_save : bool) (v : view) (s : st) : st :=
  if accepted on_save v then
    match v_status v with
    | Success => set_todo [SendIncremental; SendStatus Success] (set_view (Some (v_doc v)) s)
    | c => set_todo [SendStatus c] s
    end
  else s.
(** lib.rs:433-441: the sendings one by one. *)
Definition flush (s : st) : st :=
  match s_todo s with
  | [] => s
  | SendIncremental :: l => to_render Incremental (set_todo l s)
  | SendStatus c :: l => to_editor (StatusOf c) (set_todo l s)
  end.

(** * The whole *)
(** The parameters of a preview: standalone (actor/editor.rs:47), the refresh style (lib.rs:395), and
    the parsers. *)
Record params := mkP { p_standalone : bool; p_on_save : bool; p_oracles : oracles }.
(** Steps of the actors and of the outside.  [EIdle] is the poll of the [select!] of actor/editor.rs:177
    when both channels are closed, which panics as there is no [else] branch. *)
Inductive event :=
| EOpen (p : nat) | EFrame (p : nat) (f : frame_in) | EWebMail (p : nat) | EWebSvg (p : nat)
| ERead (p : nat) (answer : option nat) | EDraw (p : nat) | EOutRead (p : nat) | EOutDraw (p o : nat) (spans : list span)
| ENotify (v : view) | EFlush | EStatus (c : cstatus)
| EMail | ECtl | EIdle | ECtlIn (m : cmsg) | EStop | ECtlClose | ERespClose | EBoxClose.
(** The scheduler over the tasks spawned at lib.rs:96-151,257; [EStop] is lib.rs:275-280, [EStatus]
    lib.rs:406-410.  A watcher that is still sending takes no new view (it is called by one thread). *)
Definition step (P : params) (s : st) (e : event) : st :=
  match e with
  | EOpen p => match s_pages s p with None => set_page p page0 s | Some _ => s end
  | EFrame p f => web_frame (p_oracles P) p f s
  | EWebMail p => web_mail p s
  | EWebSvg p => web_svg p s
  | ERead p a => render_read p a s
  | EDraw p => render_draw p s
  | EOutRead p => outline_read p s
  | EOutDraw p o l => outline_draw p o l s
  | ENotify v => match s_todo s with [] => notify (p_on_save P) v s | _ => s end
  | EFlush => flush s
  | EStatus c => to_editor (StatusOf c) s
  | EMail => if serving s then match s_box s with [] => s | m :: q => serve_mail (p_standalone P) m (set_box q s) end else s
  | ECtl => if serving s then match s_ctl s with [] => s | m :: q => serve_ctl m (set_ctl q s) end else s
  | EIdle => if serving s && negb (s_boxopen s) && negb (s_ctlopen s) then
               match s_box s, s_ctl s with [], [] => crash s | _, _ => s end
             else s
  | ECtlIn m => if serving s && s_ctlopen s then set_ctl (s_ctl s ++ [m]) s else s
  | EStop => to_editor Shutdown s
  | ECtlClose => set_open (s_boxopen s) false (s_respopen s) s
  | ERespClose => set_open (s_boxopen s) (s_ctlopen s) false s
  | EBoxClose => set_open false (s_ctlopen s) (s_respopen s) s
  end.
(** A history of the preview; driver of [step], lib.rs:96. *)
Definition run (P : params) (s : st) (es : list event) : st := fold_left (step P) es s.

(** * The data plane *)
(** lib.rs:153-183: the connections in order of arrival, waiting to be accepted as websockets, live or ended; the
    reports of [FinallySend] not read yet; the count; and the time since the last turn of the loop. *)
Inductive conn := Shaking | Live | Ended.
(** See [conn]; lib.rs:153-183. *)
Record dp := mkDp { d_conns : list conn; d_reports : nat; d_alive : nat; d_quiet : N; d_over : option bool }.
(** lib.rs:154-155. *)
Definition dp0 : dp := mkDp [] 0 0 0 None.
(** lib.rs:91: five seconds, in milliseconds. *)
Definition idle_timeout : N := 5000%N.
(** Arrival of a stream, end of its handshake, end of the connection, report read, time, timer, stop;
    lib.rs:160-181. *)
Inductive devent := DAccept | DShake (c : nat) (ok : bool) | DEnd (c : nat) | DReport | DTime (ms : N) | DBell | DStop.
(** The connection [c] changes from [from]; lib.rs:96-151. *)
Fixpoint change (c : nat) (from_ : conn -> bool) (to : conn) (l : list conn) : option (list conn) :=
  match l, c with
  | [], _ => None
  | x :: l, O => if from_ x then Some (to :: l) else None
  | x :: l, S c => option_map (cons x) (change c from_ to l)
  end.
(** See [conn]; lib.rs:100. *)
Definition is_shaking (c : conn) : bool := match c with Shaking => true | _ => false end.
(** See [conn]; lib.rs:149. *)
Definition is_live (c : conn) : bool := match c with Live => true | _ => false end.
(** lib.rs:96-151 (the tasks of the connections) and 156-182 (the loop), [bell] being whether there is a
    [shutdown_tx].  A failed handshake panics at lib.rs:100 before [FinallySend] is made (lib.rs:148).
    [d_over] is whether the end is by idleness; the tasks of the connections outlive the loop. *)
Definition dstep (bell : bool) (s : dp) (e : devent) : dp :=
  let running := match d_over s with None => true | Some _ => false end in
  match e with
  | DAccept => if running then mkDp (d_conns s ++ [Shaking]) (d_reports s) (S (d_alive s)) 0 None else s
  | DShake c ok =>
      match change c is_shaking (if ok then Live else Ended) (d_conns s) with
      | Some l => mkDp l (d_reports s) (d_alive s) (d_quiet s) (d_over s)
      | None => s
      end
  | DEnd c =>
      match change c is_live Ended (d_conns s) with
      | Some l => mkDp l (S (d_reports s)) (d_alive s) (d_quiet s) (d_over s)
      | None => s
      end
  | DReport =>
      match running, d_reports s with
      | true, S n => mkDp (d_conns s) n (pred (d_alive s)) 0 None
      | _, _ => s
      end
  | DTime ms => mkDp (d_conns s) (d_reports s) (d_alive s) (d_quiet s + ms) (d_over s)
  | DBell =>
      if running && bell && (d_alive s =? 0) && (idle_timeout <=? d_quiet s)%N
      then mkDp (d_conns s) (d_reports s) (d_alive s) (d_quiet s) (Some true) else s
  | DStop => if running then mkDp (d_conns s) (d_reports s) (d_alive s) (d_quiet s) (Some false) else s
  end.
(** A history of the data plane; driver of [dstep], lib.rs:153. *)
Definition drun (bell : bool) (es : list devent) : dp := fold_left (dstep bell) es dp0.
