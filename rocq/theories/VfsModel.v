(** The virtual file system: layers, entry cache, revisions, snapshots and the
    shared source cache.

    Models crates/tinymist-vfs/src/lib.rs, overlay.rs, notify.rs, resolve.rs.
    File ids and paths are numbers.  The resolver ([RootResolver::path_for_id])
    is a fixed function.  An [Arc<OnceLock<_>>] is the index of a cell of the
    heap; the byte and source cells of an entry are always created together
    (lib.rs:498-499,601), so one cell holds both.  The maps behind
    [Vfs::managed] and [Vfs::paths] are always replaced together
    (lib.rs:210-211,220-221,464-465), so one handle stands for both.  Revisions
    are unbounded (the overflow check of lib.rs:345 is dropped). *)
From Coq Require Import List NArith Arith Bool.
From Verif Require Import NumModel MsgModel AssocModel.
Import ListNotations.

(** [FileResult<Bytes>] (lib.rs:83); errors are numbers. *)
Inductive fres := FOk (b : bytes) | FErr (e : nat).
(** [FileResult<Source>] (lib.rs:368): the file id and the text of the source. *)
Inductive sres := SOk (fid : nat) (text : bytes) | SErr (e : nat).
(** [FileError::InvalidUtf8], lib.rs:387; 0 is not used by other errors here. *)
Definition invalid_utf8 : nat := 0.
(** Error of an id without a path, resolve.rs:28-32. *)
Definition unresolved : nat := 1.

(** lib.rs:679-687 [from_utf8_or_bom]. *)
Definition from_utf8_or_bom (b : bytes) : option bytes :=
  let b' := match b with
    | 239%N :: 187%N :: 191%N :: r => r
    | _ => b
    end in
  if utf8_valid b' then Some b' else None.

(** lib.rs:128-131: the three layers over the disk ([OverlayAccessModel] by id,
    [OverlayAccessModel] by path, [NotifyAccessModel]). *)
Record access := mkAm { a_ids : list (nat * fres); a_shadow : list (nat * fres); a_notify : list (nat * fres) }.

(** overlay.rs:76-82, notify.rs:150-156. *)
Definition path_content (am : access) (disk : nat -> fres) (p : nat) : fres :=
  match aget p (a_shadow am) with
  | Some c => c
  | None => match aget p (a_notify am) with Some c => c | None => disk p end
  end.
(** overlay.rs:90-96, resolve.rs:27-34 [AccessModel::content]. *)
Definition content (resolve : nat -> option nat) (am : access) (disk : nat -> fres) (f : nat)
  : option nat * fres :=
  match aget f (a_ids am) with
  | Some c => (None, c)
  | None => match resolve f with
      | Some p => (Some p, path_content am disk p)
      | None => (None, FErr unresolved)
      end
  end.

(** lib.rs:580-587: the contents of the two cells of an entry. *)
Record cell := mkCell { c_bytes : option (option nat * nat * fres); c_source : option sres }.
(** [Arc::default()], lib.rs:498-499. *)
Definition fresh : cell := mkCell None None.
(** lib.rs:583-587 [VfsEntry]. *)
Record entry := mkEntry { e_changed : nat; e_cell : nat }.
(** lib.rs:589-592 [EntryMap], lib.rs:623-627 [PathMap]. *)
Record maps := mkMaps {
  m_entries : list (nat * entry);
  m_paths : list (nat * list nat);
  m_ids : list (nat * (nat * nat))
}.
(** [EntryMap::default], [PathMap::default], lib.rs:521-522. *)
Definition no_maps : maps := mkMaps [] [] [].

(** lib.rs:141-151 [SourceEntry], [SourceIdShard]. *)
Record shard := mkShard {
  sh_rev : nat; sh_recent : option bytes; sh_sources : list (bytes * (nat * sres))
}.
(** [SourceIdShard::default], lib.rs:146. *)
Definition no_shard : shard := mkShard 0 None [].

(** lib.rs:180-190 [Vfs] without the source cache (shared by all instances). *)
Record vfs := mkVfs { v_maps : nat; v_rev : nat; v_am : access }.

(** All instances (the live file system, snapshots and forks), the heap, the
    disk, the shared source cache and the reads in flight on other threads
    (lib.rs:180-190,207-225). *)
Record st := mkSt {
  s_vfs : nat -> option vfs; s_nvfs : nat;
  s_maps : nat -> maps; s_nmaps : nat;
  s_cells : nat -> cell; s_ncells : nat;
  s_disk : nat -> fres;
  s_cache : list (nat * shard);
  s_reads : list (nat * (nat * nat * nat))
}.
(** lib.rs:260-280 [Vfs::new]: one instance, at revision 2. *)
Definition init (disk : nat -> fres) : st :=
  mkSt (fun i => if i =? 0 then Some (mkVfs 0 2 (mkAm [] [] [])) else None) 1
       (fun _ => no_maps) 1 (fun _ => fresh) 0 disk [] [].

(** lib.rs:629-657 [PathMap::insert]. *)
Definition path_insert (p f rev : nat) (m : maps) : maps :=
  let push q l := aset q ((match aget q l with Some x => x | None => [] end) ++ [f]) l in
  match aget f (m_ids m) with
  | Some (prev, _) =>
      if prev =? p then m
      else
        let ps := match aget prev (m_paths m) with
          | Some l => aset prev (filter (fun x => negb (x =? f)) l) (m_paths m)
          | None => m_paths m
          end in
        mkMaps (m_entries m) (push p ps) (aset f (p, rev) (m_ids m))
  | None => mkMaps (m_entries m) (push p (m_paths m)) (aset f (p, rev) (m_ids m))
  end.

(** Replacing the contents of one handle (the [Mutex]es of lib.rs:184-185). *)
Definition set_maps (s : st) (h : nat) (m : maps) : st :=
  mkSt (s_vfs s) (s_nvfs s) (upd (s_maps s) h m) (s_nmaps s) (s_cells s) (s_ncells s) (s_disk s) (s_cache s) (s_reads s).
(** Writing a cell ([OnceLock::get_or_init], lib.rs:374,427). *)
Definition set_cell (s : st) (c : nat) (x : cell) : st :=
  mkSt (s_vfs s) (s_nvfs s) (s_maps s) (s_nmaps s) (upd (s_cells s) c x) (s_ncells s) (s_disk s) (s_cache s) (s_reads s).
(** Replacing an instance (lib.rs:342-354,461-470). *)
Definition set_vfs (s : st) (i : nat) (v : vfs) : st :=
  mkSt (upd (s_vfs s) i (Some v)) (s_nvfs s) (s_maps s) (s_nmaps s) (s_cells s) (s_ncells s) (s_disk s) (s_cache s) (s_reads s).
(** The source cache (lib.rs:153-157). *)
Definition set_cache (s : st) (c : list (nat * shard)) : st :=
  mkSt (s_vfs s) (s_nvfs s) (s_maps s) (s_nmaps s) (s_cells s) (s_ncells s) (s_disk s) c (s_reads s).
(** Reads between lib.rs:362 and lib.rs:364. *)
Definition set_reads (s : st) (r : list (nat * (nat * nat * nat))) : st :=
  mkSt (s_vfs s) (s_nvfs s) (s_maps s) (s_nmaps s) (s_cells s) (s_ncells s) (s_disk s) (s_cache s) r.

(** lib.rs:597-606 [EntryMap::slot] of the instance [v], as used by [read] and
    [source] (lib.rs:362,369-372): the cell of the file. *)
Definition slot (v : vfs) (f : nat) (s : st) : st * nat :=
  let m := s_maps s (v_maps v) in
  match aget f (m_entries m) with
  | Some e => (s, e_cell e)
  | None =>
      let c := s_ncells s in
      (mkSt (s_vfs s) (s_nvfs s)
         (upd (s_maps s) (v_maps v) (mkMaps (aset f (mkEntry 0 c) (m_entries m)) (m_paths m) (m_ids m))) (s_nmaps s)
         (upd (s_cells s) c fresh) (S c) (s_disk s) (s_cache s) (s_reads s), c)
  end.

(** lib.rs:425-436 [read_content].  Registering the path and setting the cell
    are one step. *)
Definition read_content (resolve : nat -> option nat) (v : vfs) (c f : nat) (s : st) : st * fres :=
  match c_bytes (s_cells s c) with
  | Some (_, _, r) => (s, r)
  | None =>
      let (p, r) := content resolve (v_am v) (s_disk s) f in
      let s1 := match p with
        | Some p => set_maps s (v_maps v) (path_insert p f (v_rev v) (s_maps s (v_maps v)))
        | None => s
        end in
      (set_cell s1 c (mkCell (Some (p, v_rev v, r)) (c_source (s_cells s c))), r)
  end.

(** lib.rs:361-365 [read]. *)
Definition read (resolve : nat -> option nat) (v : vfs) (f : nat) (s : st) : st * fres :=
  let (s1, c) := slot v f s in read_content resolve v c f s1.

(** Lookup of a content in [SourceIdShard::sources], lib.rs:381. *)
Fixpoint cache_get (b : bytes) (l : list (bytes * (nat * sres))) : option (nat * sres) :=
  match l with
  | [] => None
  | (b', x) :: r => if list_eq_dec N.eq_dec b b' then Some x else cache_get b r
  end.

(** lib.rs:380-418: the body of [source] after reading the bytes.
    [Source::replace] is taken to install exactly the new text.  (The shard's
    [last_accessed_rev] is never written by the code, so it stays 0.) *)
Definition parse (rev f : nat) (b : bytes) (cache : list (nat * shard)) : list (nat * shard) * sres :=
  let sh := match aget f cache with Some sh => sh | None => no_shard end in
  match cache_get b (sh_sources sh) with
  | Some (_, r) => (aset f sh cache, r)
  | None =>
      let (recent, r) := match from_utf8_or_bom b with
        | None => (sh_recent sh, SErr invalid_utf8)
        | Some t =>
            ((match sh_recent sh with
              | None => Some t
              | Some _ => if sh_rev sh <? rev then Some t else sh_recent sh
              end), SOk f t)
        end in
      (aset f (mkShard (sh_rev sh) recent ((b, (rev, r)) :: sh_sources sh)) cache, r)
  end.

(** lib.rs:368-422 [source]. *)
Definition source (resolve : nat -> option nat) (v : vfs) (f : nat) (s : st) : st * sres :=
  let (s1, c) := slot v f s in
  match c_source (s_cells s1 c) with
  | Some r => (s1, r)
  | None =>
      let (s2, b) := read_content resolve v c f s1 in
      match b with
      | FErr e => (set_cell s2 c (mkCell (c_bytes (s_cells s2 c)) (Some (SErr e))), SErr e)
      | FOk b =>
          let (cache, r) := parse (v_rev v) f b (s_cache s2) in
          (set_cache (set_cell s2 c (mkCell (c_bytes (s_cells s2 c)) (Some r))) cache, r)
      end
  end.

(** ** Revisions *)

(** The public mutators of [RevisingVfs], lib.rs:503-577. *)
Inductive rop :=
  | RMap (p : nat) (c : fres) | RUnmap (p : nat)
  | RMapId (f : nat) (c : fres) | RUnmapId (f : nat)
  | RResetShadow | RResetCache
  | RNotify (removes : list nat) (inserts : list (nat * fres)).

(** lib.rs:453-459 [RevisingVfs]: private copies of the maps, the layers of the
    instance, the heap, the goal revision and [view_changed]. *)
Record rst := mkR {
  r_maps : maps; r_am : access; r_cells : nat -> cell; r_ncells : nat; r_goal : nat; r_view : bool
}.

(** lib.rs:494-501 [invalidate_file_id]. *)
Definition invalidate_id (f : nat) (r : rst) : rst :=
  let m := r_maps r in
  mkR (mkMaps (aset f (mkEntry (r_goal r) (r_ncells r)) (m_entries m)) (m_paths m) (m_ids m))
      (r_am r) (upd (r_cells r) (r_ncells r) fresh) (S (r_ncells r)) (r_goal r) true.
(** lib.rs:481-492 [invalidate_path]. *)
Definition invalidate_path (p : nat) (r : rst) : rst :=
  match aget p (m_paths (r_maps r)) with
  | Some fids => fold_left (fun r f => invalidate_id f r) fids r
  | None => r
  end.
(** Replacing the layers ([am], lib.rs:477-479). *)
Definition set_am (r : rst) (am : access) : rst :=
  mkR (r_maps r) am (r_cells r) (r_ncells r) (r_goal r) (r_view r).
(** [self.view_changed = true], lib.rs:520,527,536,545,554. *)
Definition set_view (r : rst) : rst :=
  mkR (r_maps r) (r_am r) (r_cells r) (r_ncells r) (r_goal r) true.
(** [self.managed]/[self.paths] assignment, lib.rs:521-522. *)
Definition set_rmaps (r : rst) (m : maps) : rst :=
  mkR m (r_am r) (r_cells r) (r_ncells r) (r_goal r) (r_view r).
(** notify.rs:132-141 [NotifyAccessModel::notify]. *)
Definition notify (removes : list nat) (inserts : list (nat * fres)) (l : list (nat * fres)) : list (nat * fres) :=
  fold_left (fun l x => aset (fst x) (snd x) l) inserts (fold_left (fun l p => adel p l) removes l).

(** lib.rs:503-577. *)
Definition rstep (r : rst) (op : rop) : rst :=
  match op with
  | RMap p c =>
      let r1 := invalidate_path p (set_view r) in
      set_am r1 (mkAm (a_ids (r_am r1)) (aset p c (a_shadow (r_am r1))) (a_notify (r_am r1)))
  | RUnmap p =>
      let r1 := invalidate_path p (set_view r) in
      set_am r1 (mkAm (a_ids (r_am r1)) (adel p (a_shadow (r_am r1))) (a_notify (r_am r1)))
  | RMapId f c =>
      let r1 := invalidate_id f (set_view r) in
      set_am r1 (mkAm (aset f c (a_ids (r_am r1))) (a_shadow (r_am r1)) (a_notify (r_am r1)))
  | RUnmapId f =>
      let r1 := invalidate_id f (set_view r) in
      set_am r1 (mkAm (adel f (a_ids (r_am r1))) (a_shadow (r_am r1)) (a_notify (r_am r1)))
  | RResetShadow =>
      let r1 := fold_left (fun r p => invalidate_path p r) (akeys (a_shadow (r_am r))) r in
      let r2 := fold_left (fun r f => invalidate_id f r) (akeys (a_ids (r_am r))) r1 in
      set_am r2 (mkAm [] [] (a_notify (r_am r2)))
  | RResetCache => set_rmaps (set_view r) no_maps
  | RNotify rm ins =>
      let r1 := fold_left (fun r p => invalidate_path p r) rm r in
      let r2 := fold_left (fun r x => invalidate_path (fst x) r) ins r1 in
      set_am r2 (mkAm (a_ids (r_am r2)) (a_shadow (r_am r2)) (notify rm ins (a_notify (r_am r2))))
  end.

(** lib.rs:342-354 [revise] with the given mutators, and the drop at 461-470.
    The layers are changed in place even when the view is not. *)
Definition revise_begin (v : vfs) (s : st) : rst :=
  mkR (s_maps s (v_maps v)) (v_am v) (s_cells s) (s_ncells s) (S (v_rev v)) false.
(** lib.rs:461-470 [Drop for RevisingVfs]. *)
Definition revise_end (i : nat) (v : vfs) (r : rst) (s : st) : st :=
  let v' := if r_view r then mkVfs (s_nmaps s) (r_goal r) (r_am r) else mkVfs (v_maps v) (v_rev v) (r_am r) in
  mkSt (upd (s_vfs s) i (Some v')) (s_nvfs s)
       (if r_view r then upd (s_maps s) (s_nmaps s) (r_maps r) else s_maps s)
       (if r_view r then S (s_nmaps s) else s_nmaps s)
       (r_cells r) (r_ncells r) (s_disk s) (s_cache s) (s_reads s).
(** A whole revision: lib.rs:342-354, then the mutators, then lib.rs:461-470. *)
Definition revise (i : nat) (v : vfs) (ops : list rop) (s : st) : st :=
  revise_end i v (fold_left rstep ops (revise_begin v s)) s.

(** ** Eviction *)

(** lib.rs:300-309 [evict]: the loop runs over a copy of the map. *)
Definition evict (v : vfs) (threshold : nat) (s : st) : st :=
  let m := s_maps s (v_maps v) in
  let old (e : entry) :=
    let r := match c_bytes (s_cells s (e_cell e)) with Some (_, r, _) => r | None => 0 end in
    r + threshold <? v_rev v in
  let entries := fold_left (fun l x => if old (snd x) then adel (fst x) l else l) (m_entries m) (m_entries m) in
  set_maps s (v_maps v) (mkMaps entries (m_paths m) (m_ids m)).
(** lib.rs:160-174 [SourceCache::evict]. *)
Definition evict_cache (rev threshold : nat) (s : st) : st :=
  let keep_shard (x : nat * shard) := rev - sh_rev (snd x) <=? threshold in
  let trim (x : nat * shard) :=
    (fst x, mkShard (sh_rev (snd x)) (sh_recent (snd x))
      (filter (fun e => rev - fst (snd e) <=? threshold) (sh_sources (snd x)))) in
  set_cache s (map trim (filter keep_shard (s_cache s))).

(** lib.rs:227-244 [is_clean_compile]. *)
Definition is_clean (v : vfs) (rev : nat) (fids : list nat) (s : st) : bool :=
  forallb (fun f => match aget f (m_entries (s_maps s (v_maps v))) with
    | Some e => e_changed e <=? rev
    | None => false
    end) fids.

(** ** Histories *)

(** Operations on instance [i]; [BeginRead]/[EndRead] are a read by another
    thread, split between taking the slot (lib.rs:362) and reading (lib.rs:364). *)
Inductive op :=
  | Snapshot (i : nat) | Fork (i : nat)
  | Read (i f : nat) | ReadSource (i f : nat)
  | BeginRead (t i f : nat) | EndRead (t : nat)
  | Revise (i : nat) (ops : list rop)
  | Evict (i threshold : nat) | EvictCache (i threshold : nat)
  | Disk (p : nat) (c : fres).
(** What an operation returns to its caller (lib.rs:207-225,361-422). *)
Inductive ret := RNone | RNew (i : nat) | RBytes (r : fres) | RSource (r : sres).

(** lib.rs:207-225: [snapshot] and [fork] add an instance. *)
Definition add_vfs (v : vfs) (s : st) : st :=
  mkSt (upd (s_vfs s) (s_nvfs s) (Some v)) (S (s_nvfs s)) (s_maps s) (s_nmaps s) (s_cells s) (s_ncells s)
       (s_disk s) (s_cache s) (s_reads s).

(** One operation of lib.rs:207-577 on one instance. *)
Definition step (resolve : nat -> option nat) (s : st) (o : op) : st * ret :=
  match o with
  | Snapshot i => match s_vfs s i with
      | Some v => (add_vfs v s, RNew (s_nvfs s))
      | None => (s, RNone)
      end
  | Fork i => match s_vfs s i with
      | Some v =>
          let s1 := mkSt (s_vfs s) (s_nvfs s) (upd (s_maps s) (s_nmaps s) no_maps) (S (s_nmaps s)) (s_cells s)
                         (s_ncells s) (s_disk s) (s_cache s) (s_reads s) in
          (add_vfs (mkVfs (s_nmaps s) 2 (v_am v)) s1, RNew (s_nvfs s))
      | None => (s, RNone)
      end
  | Read i f => match s_vfs s i with
      | Some v => let (s', r) := read resolve v f s in (s', RBytes r)
      | None => (s, RNone)
      end
  | ReadSource i f => match s_vfs s i with
      | Some v => let (s', r) := source resolve v f s in (s', RSource r)
      | None => (s, RNone)
      end
  | BeginRead t i f => match s_vfs s i with
      | Some v => let (s1, c) := slot v f s in (set_reads s1 (aset t (i, f, c) (s_reads s1)), RNone)
      | None => (s, RNone)
      end
  | EndRead t => match aget t (s_reads s) with
      | Some (i, f, c) => match s_vfs s i with
          | Some v => let (s', r) := read_content resolve v c f s in (set_reads s' (adel t (s_reads s')), RBytes r)
          | None => (s, RNone)
          end
      | None => (s, RNone)
      end
  | Revise i ops => match s_vfs s i with
      | Some v => (revise i v ops s, RNone)
      | None => (s, RNone)
      end
  | Evict i n => match s_vfs s i with
      | Some v => (evict v n s, RNone)
      | None => (s, RNone)
      end
  | EvictCache i n => match s_vfs s i with
      | Some v => (evict_cache (v_rev v) n s, RNone)
      | None => (s, RNone)
      end
  | Disk p c => (mkSt (s_vfs s) (s_nvfs s) (s_maps s) (s_nmaps s) (s_cells s) (s_ncells s)
                      (upd (s_disk s) p c) (s_cache s) (s_reads s), RNone)
  end.
(** Operations one after the other (lib.rs:207-577). *)
Fixpoint run (resolve : nat -> option nat) (s : st) (ops : list op) : st * list ret :=
  match ops with
  | [] => (s, [])
  | o :: r => let (s1, x) := step resolve s o in let (s2, xs) := run resolve s1 r in (s2, x :: xs)
  end.
