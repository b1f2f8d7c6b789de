(** Vocabulary for the properties of the virtual file system. *)
From Coq Require Import List NArith Arith Bool.
From Verif Require Import NumModel MsgModel VfsModel.
Import ListNotations.

(** What the editor and the watcher told one instance, as plain functions. *)
Record told := mkTold { t_editor : nat -> option fres; t_watch : nat -> option fres }.
Definition put {A} (f : nat -> A) (k : nat) (v : A) : nat -> A := fun x => if Nat.eq_dec x k then v else f x.
Definition tell (t : told) (o : rop) : told :=
  match o with
  | RMap p c => mkTold (put (t_editor t) p (Some c)) (t_watch t)
  | RUnmap p => mkTold (put (t_editor t) p None) (t_watch t)
  | RResetShadow => mkTold (fun _ => None) (t_watch t)
  | RNotify rm ins =>
      mkTold (t_editor t)
        (fold_left (fun w x => put w (fst x) (Some (snd x))) ins (fold_left (fun w p => put w p None) rm (t_watch t)))
  | _ => t
  end.
(** The same for all instances along a history; [n] is the number of instances. *)
Fixpoint knowledge (n : nat) (k : nat -> option told) (ops : list op) : nat -> option told :=
  match ops with
  | [] => k
  | (Snapshot i | Fork i) :: r => match k i with
      | Some t => knowledge (S n) (put k n (Some t)) r
      | None => knowledge n k r
      end
  | Revise i l :: r => match k i with
      | Some t => knowledge n (put k i (Some (fold_left tell l t))) r
      | None => knowledge n k r
      end
  | _ :: r => knowledge n k r
  end.
Definition knowledge0 (ops : list op) : nat -> option told :=
  knowledge 1 (fun i => if Nat.eq_dec i 0 then Some (mkTold (fun _ => None) (fun _ => None)) else None) ops.

(** [c] was the content of [p] on disk at some moment of the history. *)
Fixpoint on_disk (disk : nat -> fres) (ops : list op) (p : nat) (c : fres) : Prop :=
  disk p = c \/
  match ops with
  | [] => False
  | Disk q d :: r => on_disk (put disk q d) r p c
  | _ :: r => on_disk disk r p c
  end.

(** Histories in which reads are not interleaved with other operations, files
    are not shadowed by id, and every batch of changes either changes the view
    or leaves the layers alone. *)
Definition by_path (o : rop) : Prop := match o with RMapId _ _ | RUnmapId _ => False | _ => True end.
Fixpoint orderly (resolve : nat -> option nat) (s : st) (ops : list op) : Prop :=
  match ops with
  | [] => True
  | o :: r =>
      match o with
      | BeginRead _ _ _ | EndRead _ => False
      | Revise i l => Forall by_path l /\
          match s_vfs s i with
          | Some v => let q := fold_left rstep l (revise_begin v s) in r_view q = true \/ r_am q = v_am v
          | None => True
          end
      | _ => True
      end /\ orderly resolve (fst (step resolve s o)) r
  end.

(** Nothing is evicted and instance [i] is not revised. *)
Definition undisturbed (i : nat) (o : op) : Prop :=
  match o with Evict _ _ => False | Revise j _ => j <> i | _ => True end.
(** Nothing is evicted and no instance drops its caches. *)
Definition cache_kept (o : op) : Prop :=
  match o with Evict _ _ => False | Revise _ l => ~ In RResetCache l | _ => True end.

(** What a source with given bytes must be. *)
Definition decoded (f : nat) (b : fres) : sres :=
  match b with
  | FErr e => SErr e
  | FOk b =>
      let t := match b with 239%N :: 187%N :: 191%N :: r => r | _ => b end in
      if utf8_valid t then SOk f t else SErr invalid_utf8
  end.

(** States of the system after some history. *)
Definition reachable (resolve : nat -> option nat) (s : st) : Prop :=
  exists disk ops, s = fst (run resolve (init disk) ops).
