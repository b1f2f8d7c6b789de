(** Revisioned caches of the language analysis:
    crates/tinymist-query/src/adt/revision.rs (revision.rs), the analysis cache
    in crates/tinymist-query/src/analysis/global.rs (global.rs) and the cache of
    semantic tokens in crates/tinymist-query/src/analysis/semantic_tokens.rs
    (semantic_tokens.rs). *)
From Coq Require Import List Arith Bool.
From Verif Require Import AssocModel.
Import ListNotations.

(** revision.rs:39-43 [RevisionManager].  The counts of [locked] are kept as a
    list with one element per lock. *)
Record mgr (D : Type) := mkMgr { m_est : nat; m_locked : list nat; m_slots : list (nat * D) }.
Arguments mkMgr {D}. Arguments m_est {D}. Arguments m_locked {D}. Arguments m_slots {D}.
(** revision.rs:45-53. *)
Definition mgr0 {D} : mgr D := mkMgr 0 [] [].
(** revision.rs:56-58 [clear]. *)
Definition clear {D} (m : mgr D) : mgr D := mkMgr (m_est m) (m_locked m) [].
(** revision.rs:70-77 [lock_estimated]; the lock holds the first component. *)
Definition lock_estimated {D} (m : mgr D) : nat * mgr D := (m_est m, mkMgr (m_est m) (m_est m :: m_locked m) (m_slots m)).
(** revision.rs:85-89: [reduce] over the slots up to [rev]. *)
Definition base {D} (rev : nat) (l : list (nat * D)) : option (nat * D) :=
  fold_left (fun acc y => match acc with
                          | None => Some y
                          | Some x => Some (if fst y <? fst x then x else y)
                          end) (filter (fun x => fst x <=? rev) l) None.
(** revision.rs:80-104 [find_revision]; [mk] is the argument [f]. *)
Definition find_revision {D} (m : mgr D) (rev : nat) (mk : option (nat * D) -> D) : D * mgr D :=
  let b := base rev (m_slots m) in
  let add := let d := mk b in (d, mkMgr (Nat.max rev (m_est m)) (m_locked m) (m_slots m ++ [(rev, d)])) in
  match b with
  | Some (r, d) => if r =? rev then (d, m) else add
  | None => add
  end.
(** One lock less, as in revision.rs:112. *)
Fixpoint remove1 (x : nat) (l : list nat) : list nat :=
  match l with [] => [] | y :: r => if y =? x then r else y :: remove1 x r end.
(** [Iterator::min] and [max], revision.rs:118,124. *)
Definition fold_opt (f : nat -> nat -> nat) (l : list nat) : option nat :=
  match l with [] => None | x :: r => Some (fold_left f r x) end.
(** revision.rs:106-125 [unlock]; [None] is the panic of line 111. *)
Definition unlock {D} (m : mgr D) (e : nat) : option (mgr D * option nat) :=
  if existsb (fun x => x =? e) (m_locked m) then
    let l := remove1 e (m_locked m) in
    let m1 := mkMgr (m_est m) l (m_slots m) in
    if existsb (fun x => x =? e) l then Some (m1, None)
    else Some (m1, match fold_opt Nat.min l with
                   | Some x => Some x
                   | None => fold_opt Nat.max (map fst (m_slots m))
                   end)
  else None.
(** revision.rs:132-136 [gc]. *)
Definition gc {D} (m : mgr D) (min_rev : nat) : mgr D :=
  mkMgr (m_est m) (m_locked m) (filter (fun x => min_rev <=? fst x) (m_slots m)).

(** * The analysis cache *)

(** What the analysis of a file sees of a world: the exports of every file, as
    numbers (crates/tinymist-query/src/syntax/expr.rs:42-62). *)
Definition view := nat -> nat.
(** The result of analysing a source text (the key, global.rs:737), as far as it
    depends on the world: the exports of the files it imports
    (crates/tinymist-query/src/syntax/expr.rs:48).  [imports] is a function of the text. *)
Definition value := list nat.
Section Analysis.
Variable imports : nat -> list nat.
(** An analysis from scratch, crates/tinymist-query/src/syntax/expr.rs:70-130. *)
Definition analyse (w : view) (k : nat) : value := map w (imports k).
(** The check of a previous result, crates/tinymist-query/src/syntax/expr.rs:42-62. *)
Definition still_valid (w : view) (k : nat) (v : value) : bool :=
  if list_eq_dec Nat.eq_dec v (analyse w k) then true else false.

(** global.rs:1038-1043 [IncrCacheMap] of one slot; [prev] and [next] are shared
    maps, given by their addresses. *)
Record cache := mkCache { c_rev : nat; c_prev : nat; c_next : nat }.
(** A request: its lock, the revision and view of its world, and its slot once
    it has entered (global.rs:94-116,230-240). *)
Record req := mkReq { q_est : nat; q_rev : nat; q_view : view; q_slot : option cache }.
(** global.rs:1186-1189 [AnalysisRevCache], the maps behind the slots, the global
    map, the requests, and the collections under way (global.rs:1267-1270). *)
Record ast := mkAst {
  a_mgr : mgr cache; a_default : cache; a_maps : nat -> list (nat * value); a_fresh : nat;
  a_global : list (nat * (nat * value)); a_reqs : list (nat * req); a_gcs : list nat
}.
(** global.rs:1185 [Default]. *)
Definition ast0 : ast := mkAst mgr0 (mkCache 0 0 1) (fun _ => []) 2 [] [] [].
(** Events: a request arrives and locks (global.rs:132-153); it enters
    (global.rs:94-103); it asks for the analysis of a text (global.rs:729-740);
    it ends (global.rs:1262-1274); a collection runs (global.rs:1267-1270); the
    caches are cleared (global.rs:156-164). *)
Inductive aevent := Lock (i rev : nat) (w : view) | Enter (i : nat) | Compute (i k : nat) | Release (i : nat) | Gc (n : nat) | Clear.
(** The answer to [Compute], a panic, or nothing: global.rs:737, revision.rs:111. *)
Inductive aout := ANone | AVal (v : value) | APanic.

(** global.rs:1057-1092 [compute] on the maps. *)
Definition compute (s : ast) (c : cache) (w : view) (k : nat) : ast * value :=
  match aget k (a_maps s (c_next c)) with
  | Some v => (s, v)
  | None =>
      let prev := match aget k (a_maps s (c_prev c)) with
                  | Some v => Some v
                  | None => option_map snd (aget k (a_global s))
                  end in
      let res := match prev with
                 | Some v => if still_valid w k v then v else analyse w k
                 | None => analyse w k
                 end in
      let g := match aget k (a_global s) with
               | Some (r, _) => if r <? c_rev c then aset k (c_rev c, res) (a_global s) else a_global s
               | None => aset k (c_rev c, res) (a_global s)
               end in
      (mkAst (a_mgr s) (a_default s) (upd (a_maps s) (c_next c) (aset k res (a_maps s (c_next c)))) (a_fresh s) g (a_reqs s) (a_gcs s), res)
  end.
(** global.rs:1241-1251: the slot made from its base ([crawl], global.rs:1094-1101)
    or a copy of the default slot, whose maps it shares. *)
Definition make_slot (s : ast) (rev : nat) (b : option (nat * cache)) : cache :=
  match b with Some (_, c) => mkCache rev (c_next c) (a_fresh s) | None => a_default s end.
(** The list without its n-th element, for the collection that runs at
    global.rs:1269. *)
Fixpoint drop_nth {A} (n : nat) (l : list A) : list A :=
  match l, n with [], _ => [] | _ :: r, 0 => r | x :: r, S n => x :: drop_nth n r end.
(** See [aevent].  The trimming of the global map (global.rs:1196-1224) is left
    out: it only removes entries.  After [Clear] the older slots of the code keep
    the old global map, here they use the new one. *)
Definition astep (s : ast) (e : aevent) : ast * aout :=
  match e with
  | Lock i rev w =>
      match aget i (a_reqs s) with
      | Some _ => (s, ANone)
      | None =>
          let (est, m) := lock_estimated (a_mgr s) in
          (mkAst m (a_default s) (a_maps s) (a_fresh s) (a_global s) (aset i (mkReq est rev w None) (a_reqs s)) (a_gcs s), ANone)
      end
  | Enter i =>
      match aget i (a_reqs s) with
      | Some (mkReq est rev w None) =>
          let (c, m) := find_revision (a_mgr s) rev (make_slot s rev) in
          (mkAst m (a_default s) (a_maps s) (S (a_fresh s)) (a_global s) (aset i (mkReq est rev w (Some c)) (a_reqs s)) (a_gcs s), ANone)
      | _ => (s, ANone)
      end
  | Compute i k =>
      match aget i (a_reqs s) with
      | Some (mkReq _ _ w (Some c)) => let (s1, v) := compute s c w k in (s1, AVal v)
      | _ => (s, ANone)
      end
  | Release i =>
      match aget i (a_reqs s) with
      | None => (s, ANone)
      | Some q =>
          match unlock (a_mgr s) (q_est q) with
          | None => (s, APanic)
          | Some (m, g) =>
              (mkAst m (a_default s) (a_maps s) (a_fresh s) (a_global s) (adel i (a_reqs s))
                     (match g with Some x => a_gcs s ++ [x] | None => a_gcs s end), ANone)
          end
      end
  | Gc n =>
      match nth_error (a_gcs s) n with
      | None => (s, ANone)
      | Some x => (mkAst (gc (a_mgr s) x) (a_default s) (a_maps s) (a_fresh s) (a_global s) (a_reqs s) (drop_nth n (a_gcs s)), ANone)
      end
  | Clear =>
      (mkAst (clear (a_mgr s)) (mkCache 0 (a_fresh s) (S (a_fresh s))) (a_maps s) (S (S (a_fresh s))) [] (a_reqs s) (a_gcs s), ANone)
  end.
(** A history of the analysis (global.rs:89-180). *)
Fixpoint arun (s : ast) (es : list aevent) : ast * list aout :=
  match es with
  | [] => (s, [])
  | e :: r => let (s1, o) := astep s e in let (s2, os) := arun s1 r in (s2, o :: os)
  end.
End Analysis.

(** * The semantic token cache *)

(** semantic_tokens.rs:95-102 [SemanticTokenContext]; [x_done] tells whether the
    request has stored its tokens (it does so once, global.rs:438-450). *)
Record ctx := mkCtx { x_path : nat; x_est : nat; x_prev : option nat; x_cell : nat; x_id : nat; x_done : bool }.
(** semantic_tokens.rs:40-46 [SemanticTokenCache] with the cells of its slots and
    the requests under way. Token lists are numbers. *)
Record tst := mkTst {
  t_next : nat; t_mgrs : list (nat * mgr nat); t_cells : nat -> option nat; t_fresh : nat; t_ctxs : list (nat * ctx)
}.
(** semantic_tokens.rs:41 [Default]. *)
Definition tst0 : tst := mkTst 0 [] (fun _ => None) 0 [].
(** A request for tokens of a path arrives, perhaps with a previous id
    (semantic_tokens.rs:55-92); it stores its tokens and answers
    (global.rs:438-450); it ends (semantic_tokens.rs:104-115); the cache is
    cleared (semantic_tokens.rs:49-52). *)
Inductive tevent := Acquire (h path : nat) (prev : option nat) | Finish (h tok : nat) | Drop (h : nat) | TClear.
(** The id given to a request, its previous id and the tokens found for that
    (semantic_tokens.rs:85-91); the tokens answered under an id; a panic
    (global.rs:446, revision.rs:111). *)
Inductive tout := TNone | TAcq (path id : nat) (prev base : option nat) | TTok (path id tok : nat) | TPanic.
(** semantic_tokens.rs:74: a manager, made when missing. *)
Definition manager (s : tst) (p : nat) : mgr nat := match aget p (t_mgrs s) with Some m => m | None => mgr0 end.
(** See [tevent].  Ids that do not parse or are zero count as absent
    (semantic_tokens.rs:64-70). *)
Definition tstep (s : tst) (e : tevent) : tst * tout :=
  match e with
  | Acquire h p prev =>
      match aget h (t_ctxs s) with
      | Some _ => (s, TNone)
      | None =>
          let id := S (t_next s) in
          let (est, m1) := lock_estimated (manager s p) in
          let '(pv, m2, f) :=
            match prev with
            | None => (None, m1, t_fresh s)
            | Some i => let (c, m) := find_revision m1 i (fun _ => t_fresh s) in (t_cells s c, m, S (t_fresh s))
            end in
          let (c, m3) := find_revision m2 id (fun _ => f) in
          (mkTst id (aset p m3 (t_mgrs s)) (t_cells s) (S f) (aset h (mkCtx p est pv c id false) (t_ctxs s)),
           TAcq p id prev pv)
      end
  | Finish h tok =>
      match aget h (t_ctxs s) with
      | Some (mkCtx p est pv c id false) =>
          match t_cells s c with
          | Some _ => (s, TPanic)
          | None =>
              (mkTst (t_next s) (t_mgrs s) (upd (t_cells s) c (Some tok)) (t_fresh s) (aset h (mkCtx p est pv c id true) (t_ctxs s)),
               TTok p id tok)
          end
      | _ => (s, TNone)
      end
  | Drop h =>
      match aget h (t_ctxs s) with
      | None => (s, TNone)
      | Some x =>
          let gone := adel h (t_ctxs s) in
          match aget (x_path x) (t_mgrs s) with
          | None => (mkTst (t_next s) (t_mgrs s) (t_cells s) (t_fresh s) gone, TNone)
          | Some m =>
              match unlock m (x_est x) with
              | None => (mkTst (t_next s) (t_mgrs s) (t_cells s) (t_fresh s) gone, TPanic)
              | Some (m1, g) =>
                  let m2 := match g with Some r => gc m1 r | None => m1 end in
                  (mkTst (t_next s) (aset (x_path x) m2 (t_mgrs s)) (t_cells s) (t_fresh s) gone, TNone)
              end
          end
      end
  | TClear => (mkTst 0 [] (t_cells s) (t_fresh s) (t_ctxs s), TNone)
  end.
(** A history of the cache (semantic_tokens.rs:40-115). *)
Fixpoint trun (s : tst) (es : list tevent) : tst * list tout :=
  match es with
  | [] => (s, [])
  | e :: r => let (s1, o) := tstep s e in let (s2, os) := trun s1 r in (s2, o :: os)
  end.
