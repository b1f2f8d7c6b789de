(** Model of the statistics of queries: crates/tinymist/src/stats.rs, crates/tinymist-query/src/analysis/stats.rs and crates/tinymist-analysis/src/stats.rs. *)
From Coq Require Import List Arith Bool NArith.
Import ListNotations.

(** [QueryStatBucketData], crates/tinymist/src/stats.rs:10-17 and crates/tinymist-query/src/analysis/stats.rs:9-16: one record for both (the first has no [missing], the second no [snap]).  Durations are counted in the smallest unit; [total] and [snap] do not overflow here. *)
Record bucket := mkBucket { b_query : nat; b_missing : nat; b_total : nat; b_snap : nat; b_min : nat; b_max : nat }.
(** [QueryStatGuard], crates/tinymist/src/stats.rs:37-41 and crates/tinymist-query/src/analysis/stats.rs:36-39: the bucket by its key (the [Arc] of it is shared and never replaced), when the query began, and the duration at the snapshot if there was one. *)
Record guard := mkGuard { g_key : nat; g_since : nat; g_snap : option nat }.
(** A key stands for a file and the name of a query (crates/tinymist/src/stats.rs:64-66, crates/tinymist-query/src/analysis/stats.rs:61-63); buckets in the order of the map, guards by a number. *)
Record st := mkSt { s_buckets : list (nat * bucket); s_guards : list (nat * guard) }.
(** What happens to guards, with the time: crates/tinymist/src/stats.rs:70-82 and crates/tinymist-query/src/analysis/global.rs:977-985 ([Begin]), analysis/stats.rs:53-56 ([Miss]), crates/tinymist/src/stats.rs:56-59 ([Snap]), and the end of a guard ([End]). *)
Inductive event := Begin (g key now : nat) | Miss (g : nat) | Snap (g now : nat) | End (g now : nat).

Section Stat.
(** [Duration::from_secs(u64::MAX)], crates/tinymist/src/stats.rs:25 and analysis/stats.rs:24. *)
Variable top : nat.
(** [QueryStatBucketData::default], crates/tinymist/src/stats.rs:19-29 and analysis/stats.rs:18-28. *)
Definition fresh : bucket := mkBucket 0 0 0 0 top 0.
(** [entry(..).or_default()], crates/tinymist/src/stats.rs:73-76. *)
Fixpoint ensure (k : nat) (l : list (nat * bucket)) : list (nat * bucket) :=
  match l with [] => [(k, fresh)] | (j, b) :: r => if j =? k then l else (j, b) :: ensure k r end.
(** [bucket.data.lock()] and a change of what is there, crates/tinymist/src/stats.rs:46-51. *)
Definition change (k : nat) (f : bucket -> bucket) (l : list (nat * bucket)) : list (nat * bucket) :=
  map (fun x => if fst x =? k then (fst x, f (snd x)) else x) l.
(** The guard of a number, for crates/tinymist/src/stats.rs:37. *)
Fixpoint guard_of (g : nat) (l : list (nat * guard)) : option guard :=
  match l with [] => None | (j, x) :: r => if j =? g then Some x else guard_of g r end.
(** The guards without that of a number, for crates/tinymist/src/stats.rs:37. *)
Definition without (g : nat) (l : list (nat * guard)) : list (nat * guard) := filter (fun x => negb (fst x =? g)) l.
(** crates/tinymist/src/stats.rs:43-53 and analysis/stats.rs:41-50 [drop]; [elapsed().unwrap_or_default()] is nothing if the clock went back. *)
Definition count (x : guard) (now : nat) (b : bucket) : bucket :=
  let elapsed := now - g_since x in
  mkBucket (b_query b + 1) (b_missing b) (b_total b + elapsed) (b_snap b + match g_snap x with Some d => d | None => 0 end)
    (Nat.min (b_min b) elapsed) (Nat.max (b_max b) elapsed).
(** analysis/stats.rs:53-56 [miss]. *)
Definition missed (b : bucket) : bucket := mkBucket (b_query b) (b_missing b + 1) (b_total b) (b_snap b) (b_min b) (b_max b).
(** crates/tinymist/src/stats.rs:56-59 [snap]: [get_or_init] keeps the first. *)
Definition snapped (x : guard) (now : nat) : guard :=
  match g_snap x with Some _ => x | None => mkGuard (g_key x) (g_since x) (Some (now - g_since x)) end.
(** One event on the state: crates/tinymist/src/stats.rs:43-82. *)
Definition step (s : st) (e : event) : st :=
  match e with
  | Begin g k now => mkSt (ensure k (s_buckets s)) ((g, mkGuard k now None) :: without g (s_guards s))
  | Miss g => match guard_of g (s_guards s) with None => s | Some x => mkSt (change (g_key x) missed (s_buckets s)) (s_guards s) end
  | Snap g now => match guard_of g (s_guards s) with None => s | Some x => mkSt (s_buckets s) ((g, snapped x now) :: without g (s_guards s)) end
  | End g now => match guard_of g (s_guards s) with None => s | Some x => mkSt (change (g_key x) (count x now) (s_buckets s)) (without g (s_guards s)) end
  end.
(** All events, from [Default::default()] at crates/tinymist/src/stats.rs:63. *)
Definition run (tr : list event) : st := fold_left step tr (mkSt [] []).
End Stat.

(** [sort_by] with [y.cmp(&x)], crates/tinymist/src/stats.rs:100, analysis/stats.rs:81 and crates/tinymist-analysis/src/stats.rs:38: stable, by a key of the rows, the largest first. *)
Fixpoint put {A} (key : A -> nat) (x : A) (l : list A) : list A :=
  match l with [] => [x] | y :: r => if key y <? key x then x :: l else y :: put key x r end.
(** The rows in order, as for [put] (crates/tinymist/src/stats.rs:100). *)
Definition sorted {A} (key : A -> nat) (l : list A) : list A := fold_left (fun acc x => put key x acc) l [].
(** [report], crates/tinymist/src/stats.rs:85-129 and analysis/stats.rs:67-113: the rows; the text around them is left out. *)
Definition report (s : st) : list (nat * bucket) := sorted (fun x => b_max (snd x)) (s_buckets s).
(** A table of [AllocStats::report], crates/tinymist-analysis/src/stats.rs:30-35: its name, the size of one object, how many were allocated and dropped. *)
Record table := mkTable { t_name : nat; t_size : nat; t_allocated : nat; t_dropped : nat }.
(** crates/tinymist-analysis/src/stats.rs:33: [saturating_sub]. *)
Definition alive (t : table) : nat := t_allocated t - t_dropped t.
(** crates/tinymist-analysis/src/stats.rs:29-38: the rows: the table, how many are alive, and their size. *)
Definition alloc_report (ts : list table) : list (table * nat * N) :=
  sorted (fun x => snd (fst x)) (map (fun t => (t, alive t, N.mul (N.of_nat (t_size t)) (N.of_nat (alive t)))) ts).
(** crates/tinymist-analysis/src/stats.rs:75-78: the loop, with the number of units not tried yet; dividing by 1024 is exact, so that the size stays a number of bytes and the limit grows. *)
Fixpoint unit_of (left_ unit : nat) (limit size : N) : nat :=
  match left_ with
  | O => unit
  | S l => if N.leb limit size then unit_of l (S unit) (1024 * limit) size else unit
  end.
(** crates/tinymist-analysis/src/stats.rs:71-80 [human_size]: the index of the unit; [None] is a panic of [units[unit]]. *)
Definition human_size (size : N) : option nat := let u := unit_of 5 0 768 size in if u <? 5 then Some u else None.
