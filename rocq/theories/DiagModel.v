(** Model of the way of diagnostics and compile status to the editor:
    crates/tinymist/src/project.rs:427-485,549-635 (CompileHandlerImpl) and
    crates/tinymist/src/actor/editor.rs (EditorActor). *)
From Coq Require Import List Arith Bool.
From Verif Require Import AssocModel.
Import ListNotations.

(** [DiagnosticsMap]: the diagnostics of every file; editor.rs:12. *)
Definition dmap := list (nat * list nat).
(** What a [CompileReport] says (tinymist-project compiler.rs, used at editor.rs:92-109): path,
    page count, and whether it is suspended, compiling, good or bad. *)
Inductive rstat := Suspend | Compiling | Success | Failure.
(** See [rstat]; editor.rs:92-109. *)
Record report := mkRep { rp_path : nat; rp_pages : nat; rp_stat : rstat }.
(** editor.rs:26-34 [EditorRequest]; project 0 is the primary. *)
Inductive req :=
| RConfig (notify : bool)
| RDiag (id rev : nat) (m : option dmap)
| RStatus (id : nat) (r : report)
| RCount (id n : nat).
(** editor.rs:205-212 [CompileStatusEnum]. *)
Inductive estat := ECompiling | EGood | EBad.
(** editor.rs:228-240 [StatusAll]. *)
Record status := mkSA { sa_stat : estat; sa_path : nat; sa_pages : nat; sa_words : option nat }.
(** Notifications to the client: diagnostics of a file, project by project (editor.rs:187-192),
    and the status (editor.rs:109,116). *)
Inductive note := Publish (uri : nat) (groups : list (list nat)) | StatusAll (s : status).
(** editor.rs:37-53 [EditorActor] and the local state at editor.rs:74-79.  Hash maps are
    association lists: their order of iteration is one of the possible ones. *)
Record actor := mkAct { a_notify : bool; a_diags : list (nat * list (nat * list nat)); a_aff : list (nat * list nat); a_status : status }.
(** editor.rs:57-79. *)
Definition actor0 (notify : bool) : actor := mkAct notify [] [] (mkSA ECompiling 0 0 None).
(** editor.rs:163 [entry.or_default]. *)
Definition groups_of (u : nat) (a : actor) : list (nat * list nat) := match aget u (a_diags a) with Some g => g | None => [] end.
(** editor.rs:159-193 [publish_file]. *)
Definition publish_file (a : actor) (id u : nat) (next : option (list nat)) : actor * list note :=
  let g := groups_of u a in
  let others := map snd (filter (fun x => negb (id =? fst x)) g) in
  let g' := match next with Some l => aset id l g | None => adel id g end in
  (mkAct (a_notify a) (aset u g' (a_diags a)) (a_aff a) (a_status a),
   [Publish u (others ++ match next with Some l => [l] | None => [] end)]).
(** The loops of editor.rs:145-155. *)
Fixpoint publish_files (a : actor) (id : nat) (l : list (nat * option (list nat))) : actor * list note :=
  match l with
  | [] => (a, [])
  | (u, next) :: r => let '(a1, o1) := publish_file a id u next in let '(a2, o2) := publish_files a1 id r in (a2, o1 ++ o2)
  end.
(** The keys of the next diagnostics, if any; editor.rs:131,147. *)
Definition next_keys (m : option dmap) : list nat := match m with Some m => akeys m | None => [] end.
(** editor.rs:127-156 [publish]. *)
Definition publish (a : actor) (id : nat) (m : option dmap) : actor * list note :=
  let affected := match aget id (a_aff a) with Some us => us | None => [] end in
  let a1 := mkAct (a_notify a) (a_diags a) (match m with Some m => aset id (akeys m) (a_aff a) | None => adel id (a_aff a) end) (a_status a) in
  let gone := filter (fun u => negb (existsb (Nat.eqb u) (next_keys m))) affected in
  let '(a2, o2) := publish_files a1 id (map (fun u => (u, None)) gone) in
  let '(a3, o3) := publish_files a2 id (match m with Some m => map (fun x => (fst x, Some (snd x))) m | None => [] end) in
  (a3, o2 ++ o3).
(** editor.rs:100-108. *)
Definition show_stat (r : rstat) : estat := match r with Compiling => ECompiling | Suspend | Success => EGood | Failure => EBad end.
(** The body of the loop, editor.rs:81-119. *)
Definition handle (a : actor) (r : req) : actor * list note :=
  match r with
  | RConfig b => (mkAct b (a_diags a) (a_aff a) (a_status a), [])
  | RDiag id _ m => publish a id m
  | RStatus id r =>
      if a_notify a && (id =? 0) then
        let s := mkSA (show_stat (rp_stat r)) (rp_path r) (rp_pages r) (sa_words (a_status a)) in
        (mkAct (a_notify a) (a_diags a) (a_aff a) s, [StatusAll s])
      else (a, [])
  | RCount id n =>
      if a_notify a && (id =? 0) then
        let s := mkSA (sa_stat (a_status a)) (sa_path (a_status a)) (sa_pages (a_status a)) (Some n) in
        (mkAct (a_notify a) (a_diags a) (a_aff a) s, [StatusAll s])
      else (a, [])
  end.
(** The loop, editor.rs:81-121. *)
Fixpoint handles (a : actor) (rs : list req) : actor * list note :=
  match rs with
  | [] => (a, [])
  | r :: rs => let '(a1, o1) := handle a r in let '(a2, o2) := handles a1 rs in (a2, o1 ++ o2)
  end.

(** The handler: notified_revision and status_revision (project.rs:398-425), the calls of
    [notify_compile] (and its lint jobs in the thread pool) that have not sent their diagnostics
    yet, the channel, and the actor. *)
Record pipe := mkP { p_notified : list (nat * nat); p_status : list (nat * nat); p_jobs : list (nat * nat * option dmap); p_chan : list req; p_actor : actor }.
(** project.rs:398-425 and server start. *)
Definition pipe0 (notify : bool) : pipe := mkP [] [] [] [] (actor0 notify).
(** What can happen: a compilation calls [notify_compile] (project.rs:597-608; [m] is what
    project.rs:439-483 will send), it sends its diagnostics (project.rs:441,462,480), a project is
    removed, a report of status, other requests (lsp.rs:146, export.rs:120), and the actor
    receives. *)
Inductive pev :=
| Notify (id rev : nat) (m : option dmap)
| Deliver (i : nat)
| Removed (id : nat)
| Report (id rev : nat) (r : report)
| Config (b : bool)
| Count (id n : nat)
| Recv.
(** [or_default] of a revision; project.rs:552,600. *)
Definition rev_of (id : nat) (m : list (nat * nat)) : nat := match aget id m with Some r => r | None => 0 end.
(** The jobs without one; for project.rs:469-483. *)
Fixpoint del_nth {A} (i : nat) (l : list A) : list A :=
  match l, i with [], _ => [] | _ :: r, 0 => r | y :: r, S i => y :: del_nth i r end.
(** One step; project.rs:427-485,549-635. *)
Definition pstep (s : pipe) (e : pev) : pipe * list note :=
  match e with
  | Notify id rev m =>
      if rev <=? rev_of id (p_notified s) then (s, [])
      else (mkP (aset id rev (p_notified s)) (p_status s) (p_jobs s ++ [(id, rev, m)]) (p_chan s) (p_actor s), [])
  | Deliver i =>
      match nth_error (p_jobs s) i with
      | Some (id, rev, m) => (mkP (p_notified s) (p_status s) (del_nth i (p_jobs s)) (p_chan s ++ [RDiag id rev m]) (p_actor s), [])
      | None => (s, [])
      end
  | Removed id => (mkP (adel id (p_notified s)) (p_status s) (p_jobs s) (p_chan s ++ [RDiag id (rev_of id (p_notified s)) None]) (p_actor s), [])
  | Report id rev r =>
      if rev <? rev_of id (p_status s) then (s, [])
      else (mkP (p_notified s) (aset id rev (p_status s)) (p_jobs s)
              (p_chan s ++ (match rp_stat r with Suspend => [RDiag id rev None] | _ => [] end) ++ [RStatus id r]) (p_actor s), [])
  | Config b => (mkP (p_notified s) (p_status s) (p_jobs s) (p_chan s ++ [RConfig b]) (p_actor s), [])
  | Count id n => (mkP (p_notified s) (p_status s) (p_jobs s) (p_chan s ++ [RCount id n]) (p_actor s), [])
  | Recv =>
      match p_chan s with
      | [] => (s, [])
      | r :: c => let '(a, o) := handle (p_actor s) r in (mkP (p_notified s) (p_status s) (p_jobs s) c a, o)
      end
  end.
(** A history; driver of [pstep], project.rs:427-635. *)
Fixpoint prun (s : pipe) (es : list pev) : pipe * list note :=
  match es with
  | [] => (s, [])
  | e :: es => let '(s1, o1) := pstep s e in let '(s2, o2) := prun s1 es in (s2, o1 ++ o2)
  end.
