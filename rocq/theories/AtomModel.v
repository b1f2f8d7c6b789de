(** Model of the atomic file writes of exports and materials:
    crates/tinymist-std/src/fs/paths.rs:184-221 [write_atomic], used at
    crates/tinymist/src/task/export.rs:309-318 and crates/tinymist-project/src/lock.rs:335.
    Any number of writers run at once, the temporary files have fresh names in the
    directory of the destination ([tempfile]), and a writer may fail or be killed
    between any two steps.  Names are numbers; symbolic links, directories and the
    umask are left out. *)
From Coq Require Import List Arith NArith Bool.
From Verif Require Import AssocModel.
Import ListNotations.

(** A file with its permission bits, and whether its bytes have not reached the disk
    (no [sync_all] at paths.rs:209-219). *)
Record afile := mkF { f_data : list nat; f_mode : N; f_dirty : bool }.
(** The mode of a new temporary file, paths.rs:190 (0o600). *)
Definition temp_mode : N := 384%N.
(** [S_IRWXU | S_IRWXG | S_IRWXO] of paths.rs:199 (0o777). *)
Definition perm_mask : N := 511%N.
(** Where a writer is: before reading the permissions (paths.rs:194), with them
    (paths.rs:203), writing the temporary file (paths.rs:206-209; [rest] is still to
    be written), or ready to rename it (paths.rs:219). *)
Inductive aphase := PBegin | PMeta (perm : option N) | PTemp (t : nat) (perm : option N) (rest : list nat) | PReady (t : nat).
(** A call of [write_atomic], paths.rs:187. *)
Record writer := mkWr { w_dest : nat; w_data : list nat; w_phase : aphase }.
(** The directory and the calls that run, paths.rs:187. *)
Record ast := mkA { a_dir : list (nat * afile); a_ws : list (nat * writer) }.
(** The steps of paths.rs:187-221 in any interleaving.  [AFail]: any of the calls marked
    with [?] fails.  [AKill]: the process dies.  [APower]: the machine loses power; files that
    are not on disk keep some of their bytes. *)
Inductive aevent :=
| ABegin (i dest : nat) (data : list nat) | AMeta (i : nat) | ACreate (i t : nat) | AWrite (i n : nat) | AChmod (i : nat)
| ARename (i : nat) | AFail (i : nat) | AKill (i : nat) | APower (keep : nat).
(** The result of a call, paths.rs:187. *)
Inductive aout := ODone (i dest : nat) (data : list nat) | OFailed (i : nat).

(** The temporary file of a writer, paths.rs:206. *)
Definition temp_of (w : writer) : option nat := match w_phase w with PTemp t _ _ => Some t | PReady t => Some t | _ => None end.
(** [NamedTempFile] removes its file when dropped (paths.rs:206, any later error). *)
Definition drop_temp (w : writer) (d : list (nat * afile)) : list (nat * afile) :=
  match temp_of w with Some t => adel t d | None => d end.
(** A writer in another phase; see [aphase], paths.rs:187-221. *)
Definition at_ (w : writer) (p : aphase) : writer := mkWr (w_dest w) (w_data w) p.
(** One step; events that are not possible do nothing.  paths.rs:187-221. *)
Definition astep (s : ast) (e : aevent) : ast * list aout :=
  let d := a_dir s in
  match e with
  | ABegin i dest data =>
      match aget i (a_ws s) with
      | None => (mkA d (aset i (mkWr dest data PBegin) (a_ws s)), [])
      | Some _ => (s, [])
      end
  | AMeta i =>
      match aget i (a_ws s) with
      | Some w =>
          match w_phase w with
          | PBegin => (mkA d (aset i (at_ w (PMeta (option_map (fun f => N.land (f_mode f) perm_mask) (aget (w_dest w) d)))) (a_ws s)), [])
          | _ => (s, [])
          end
      | None => (s, [])
      end
  | ACreate i t =>
      match aget i (a_ws s) with
      | Some w =>
          match w_phase w with
          | PMeta perm =>
              (* created exclusively: an existing name is not taken *)
              match aget t d with
              | None => (mkA (aset t (mkF [] temp_mode true) d) (aset i (at_ w (PTemp t perm (w_data w))) (a_ws s)), [])
              | Some _ => (s, [])
              end
          | _ => (s, [])
          end
      | None => (s, [])
      end
  | AWrite i n =>
      match aget i (a_ws s) with
      | Some w =>
          match w_phase w with
          | PTemp t perm rest =>
              match aget t d with
              | Some f => (mkA (aset t (mkF (f_data f ++ firstn n rest) (f_mode f) true) d) (aset i (at_ w (PTemp t perm (skipn n rest))) (a_ws s)), [])
              | None => (s, [])
              end
          | _ => (s, [])
          end
      | None => (s, [])
      end
  | AChmod i =>
      match aget i (a_ws s) with
      | Some w =>
          match w_phase w with
          | PTemp t perm [] =>
              match aget t d with
              | Some f => (mkA (match perm with Some m => aset t (mkF (f_data f) m (f_dirty f)) d | None => d end) (aset i (at_ w (PReady t)) (a_ws s)), [])
              | None => (s, [])
              end
          | _ => (s, [])
          end
      | None => (s, [])
      end
  | ARename i =>
      match aget i (a_ws s) with
      | Some w =>
          match w_phase w with
          | PReady t =>
              match aget t d with
              | Some f => (mkA (aset (w_dest w) f (adel t d)) (adel i (a_ws s)), [ODone i (w_dest w) (w_data w)])
              | None => (s, [])
              end
          | _ => (s, [])
          end
      | None => (s, [])
      end
  | AFail i =>
      match aget i (a_ws s) with
      | Some w => (mkA (drop_temp w d) (adel i (a_ws s)), [OFailed i])
      | None => (s, [])
      end
  | AKill i => (mkA d (adel i (a_ws s)), [])
  | APower keep =>
      (mkA (map (fun x => (fst x, if f_dirty (snd x) then mkF (firstn keep (f_data (snd x))) (f_mode (snd x)) false else snd x)) d) [], [])
  end.
(** A run; driver of [astep], paths.rs:187-221. *)
Fixpoint arun (s : ast) (es : list aevent) : ast * list aout :=
  match es with
  | [] => (s, [])
  | e :: r => let '(s1, o1) := astep s e in let '(s2, o2) := arun s1 r in (s2, o1 ++ o2)
  end.
