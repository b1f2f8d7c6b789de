(** What is expected of the lock file and the routes (C26, C27, C28, C70, C71). *)
From Coq Require Import List Arith Bool Permutation.
From Verif Require Import AssocModel LockModel.
Import ListNotations.

(** [new] is [old] with the entry [x]: one entry for its key, the others as before
    (in their order, or in any order). *)
Definition others {A} (key : A -> nat) (x : A) (l : list A) : list A := filter (fun y => negb (key y =? key x)) l.
Definition upserted {A} (key : A -> nat) (x : A) (old new : list A) : Prop :=
  filter (fun y => key y =? key x) new = [x] /\ others key x new = others key x old.
Definition upserted_any_order {A} (key : A -> nat) (x : A) (old new : list A) : Prop :=
  filter (fun y => key y =? key x) new = [x] /\ Permutation (others key x new) (others key x old).
Definition unique {A} (key : A -> nat) (l : list A) : Prop := NoDup (map key l).
Definition well_formed (l : lock) : Prop := unique o_id (l_docs l) /\ unique t_id (l_tasks l).
Definition same_lock (a b : lock) : Prop :=
  Permutation (l_docs a) (l_docs b) /\ Permutation (l_tasks a) (l_tasks b) /\ l_routes a = l_routes b.

(** The lock a file stands for: an empty file is an empty lock for updates. *)
Definition contents (c : list line) : option lock := match c with [] => Some lock0 | _ => parse c end.

(** The observations are those of updates and reads one after the other, starting
    with the contents [c]; [last_contents] is what they leave. *)
Fixpoint serial (c : list line) (os : list fout) : Prop :=
  match os with
  | [] => True
  | FUpdated _ f old new :: r => old = c /\ update_text f old = Some new /\ serial new r
  | FRead _ x :: r => x = c /\ serial c r
  | FError _ :: r => serial c r
  end.
Fixpoint last_contents (c : list line) (os : list fout) : list line :=
  match os with
  | [] => c
  | FUpdated _ _ _ new :: r => last_contents new r
  | _ :: r => last_contents c r
  end.
Definition file_contents (s : fst_) : list line := match z_file s with Some c => c | None => [] end.
Definition writing (s : fst_) (i : nat) : Prop := exists f old rest, aget i (z_procs s) = Some (Updater f, Truncated old rest).
(** No process dies while it writes the file. *)
Fixpoint kills_outside_writes (s : fst_) (es : list fevent) : Prop :=
  match es with
  | [] => True
  | e :: r => match e with EKill i => ~ writing s i | _ => True end /\ kills_outside_writes (fst (fstep s e)) r
  end.
Definition fresh_fs (c : option (list line)) : fst_ := mkFst c None [] [].

(** The route for a file: the last one whose document depends on it. *)
Definition covers_file (mats : list (nat * list nat)) (leaf : nat) (r : route) : Prop :=
  exists files, aget (r_id r) mats = Some files /\ In leaf files.
Definition chosen (rs : list route) (mats : list (nat * list nat)) (leaf i : nat) : Prop :=
  exists pre r post, rs = pre ++ r :: post /\ r_id r = i /\ covers_file mats leaf r /\
    forall r', In r' post -> covers_file mats leaf r' -> r_id r' = i.
(** The best priority is the lowest number. *)
Definition best (rs : list route) (mats : list (nat * list nat)) (leaf i : nat) : Prop :=
  exists r, In r rs /\ r_id r = i /\ covers_file mats leaf r /\
    forall r', In r' rs -> covers_file mats leaf r' -> r_prio r <= r_prio r'.
(** Priorities do not get worse towards the end of the list. *)
Fixpoint improving (rs : list route) : Prop :=
  match rs with
  | [] => True
  | r :: rest => (forall r', In r' rest -> r_prio r' <= r_prio r) /\ improving rest
  end.

(** The routes of a directory, loaded or not. *)
Definition routes_of (d : disk) (st : list (nat * rps)) (dir leaf : nat) : option nat :=
  match aget dir st with
  | Some p => aget leaf (calculate_routes (l_routes (q_lock p)) (q_mats p))
  | None => match k_lock d dir with Some l => aget leaf (calculate_routes (l_routes l) (k_mats d dir)) | None => None end
  end.
Definition nearest (d : disk) (st : list (nat * rps)) (dirs : list nat) (leaf : nat) (x : option (nat * nat)) : Prop :=
  match x with
  | Some (dir, i) => exists pre post, dirs = pre ++ dir :: post /\ routes_of d st dir leaf = Some i /\
                     forall y, In y pre -> routes_of d st y leaf = None
  | None => forall y, In y dirs -> routes_of d st y leaf = None
  end.
(** Every answer of a history was the nearest route for the states at that time. *)
Fixpoint answers_nearest (s : disk * list (nat * rps)) (es : list revent) : Prop :=
  match es with
  | [] => True
  | e :: r =>
      match e with
      | RResolve dirs leaf => nearest (fst s) (snd s) dirs leaf (snd (resolve (fst s) (snd s) dirs leaf))
      | _ => True
      end /\ answers_nearest (fst (rstep s e)) r
  end.
