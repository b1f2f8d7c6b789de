(** What is expected of diagnostics and compile status at the client (C37, C38, C79). *)
From Coq Require Import List Arith Bool Permutation.
From Verif Require Import AssocModel DiagModel.
Import ListNotations.

(** What the client shows for a file: the last that it received. *)
Definition view (os : list note) (u : nat) : list nat :=
  fold_left (fun l o => match o with Publish v g => if v =? u then concat g else l | _ => l end) os [].
(** The latest diagnostics of a project in a list of requests. *)
Definition latest (rs : list req) (id : nat) : option dmap :=
  fold_left (fun acc r => match r with RDiag q _ m => if q =? id then m else acc | _ => acc end) rs None.
(** Those for a file. *)
Definition of_file (m : option dmap) (u : nat) : list nat :=
  match m with Some m => match aget u m with Some l => l | None => [] end | None => [] end.
(** The maps of the requests have every file once (they are hash maps). *)
Definition req_ok (r : req) : Prop := match r with RDiag _ _ (Some m) => NoDup (akeys m) | _ => True end.
(** The newest compilation of a project since its diagnostics were last dropped: its revision
    and diagnostics; and the greatest revision of its reports. *)
Record now := mkNow { n_rev : nat; n_diag : option dmap; n_stat : nat }.
Definition now_step (id : nat) (n : now) (e : pev) : now :=
  match e with
  | Notify q rev m => if (q =? id) && (n_rev n <? rev) then mkNow rev m (n_stat n) else n
  | Removed q => if q =? id then mkNow 0 None (n_stat n) else n
  | Report q rev r =>
      if (q =? id) && (n_stat n <=? rev) then mkNow (n_rev n) (match rp_stat r with Suspend => None | _ => n_diag n end) rev else n
  | _ => n
  end.
Definition current (es : list pev) (id : nat) : now := fold_left (now_step id) es (mkNow 0 None 0).
(** The compilation results have every file once. *)
Definition pev_ok (e : pev) : Prop := match e with Notify _ _ (Some m) => NoDup (akeys m) | _ => True end.
(** The project whose diagnostics an event changes. *)
Definition touches (e : pev) : option nat :=
  match e with Notify q _ _ | Removed q => Some q | Report q _ r => match rp_stat r with Suspend => Some q | _ => None end | _ => None end.
(** Diagnostics are sent before the next change of the same project. *)
Fixpoint prompt (s : pipe) (es : list pev) : Prop :=
  match es with
  | [] => True
  | e :: es => (forall id, touches e = Some id -> ~ In id (map (fun j => fst (fst j)) (p_jobs s))) /\ prompt (fst (pstep s e)) es
  end.
(** The latest report and word count of the primary project. *)
Definition last_report (rs : list req) : option report :=
  fold_left (fun acc r => match r with RStatus 0 r => Some r | _ => acc end) rs None.
Definition last_count (rs : list req) : option nat :=
  fold_left (fun acc r => match r with RCount 0 n => Some n | _ => acc end) rs None.
(** What a status message should say. *)
Definition status_of (rep : option report) (cnt : option nat) : status :=
  match rep with
  | Some r => mkSA (match rp_stat r with Compiling => ECompiling | Failure => EBad | _ => EGood end) (rp_path r) (rp_pages r) cnt
  | None => mkSA ECompiling 0 0 cnt
  end.
(** What the actor should be told besides diagnostics, in order: reports of status unless a newer
    one of the project was seen. *)
Definition tells (pre : list pev) (e : pev) : list req :=
  match e with
  | Config b => [RConfig b]
  | Count id n => [RCount id n]
  | Report id rev r => if n_stat (current pre id) <=? rev then [RStatus id r] else []
  | _ => []
  end.
Fixpoint told (pre es : list pev) : list req := match es with [] => [] | e :: r => tells pre e ++ told (pre ++ [e]) r end.
Definition no_diag (r : req) : bool := match r with RDiag _ _ _ => false | _ => true end.
