(** Scopes of typlite (C194). *)
From Coq Require Import List Arith Bool.
From Verif Require Import StkModel StkSpec StkProof.
Import ListNotations.

(** A name has the value of the innermost scope that has it, and otherwise there is an error. *)
Theorem C194_get : forall n s v, get n s = Some v <-> binds n v (frames s).
Proof. intros. apply find_binds. Qed.
Print Assumptions C194_get.
(** A definition sets its name and no other, in the innermost scope alone. *)
Theorem C194_define : forall n v s m, get m (define n v s) = (if n =? m then Some v else get m s) /\ below (define n v s) = below s.
Proof. intros n v s m. split; [|reflexivity]. unfold get, define. cbn [top below find]. rewrite lookup_put. now destruct (n =? m). Qed.
Print Assumptions C194_define.
(** A write is done exactly for names that are there; it changes that name alone, and defines none. *)
Theorem C194_write : forall n v s, match set n v s with
  | Some s' => get n s <> None /\ (forall m, get m s' = if n =? m then Some v else get m s) /\ map (map fst) (frames s') = map (map fst) (frames s)
  | None => get n s = None end.
Proof. exact set_spec. Qed.
Print Assumptions C194_write.
(** A new scope hides nothing. *)
Theorem C194_enter : forall n s, get n (enter s) = get n s.
Proof. intros n s. unfold get, enter. cbn [top below find lookup]. now rewrite rev_app_distr. Qed.
Print Assumptions C194_enter.
(** A panic comes exactly when more scopes are left than were entered. *)
Theorem C194_panic : forall l s, run l s = None <-> depth l (length (below s)) = None.
Proof. intros l s. pose proof (run_depth l s) as D. destruct (run l s); [rewrite D; split; discriminate|now rewrite D]. Qed.
Print Assumptions C194_panic.
(** A block without writes leaves the scopes as they were. *)
Theorem C194_block : forall l s, balanced l -> (forall n v, ~ In (Set_ n v) l) -> run (Enter :: l ++ [Exit]) s = Some s.
Proof.
  intros l s B N. cbn [run]. rewrite run_app. destruct (balanced_same l B N (enter s)) as (t & -> & F). cbn [run]. destruct t as [u b]. cbn [below enter] in F. subst b. rewrite exit_push. now destruct s.
Qed.
Print Assumptions C194_block.
(** A block with writes defines and removes no name outside it. *)
Theorem C194_block_names : forall l s, balanced l -> exists s', run (Enter :: l ++ [Exit]) s = Some s' /\ map (map fst) (frames s') = map (map fst) (frames s).
Proof.
  intros l s B. cbn [run]. rewrite run_app. destruct (balanced_names l B (enter s)) as (t & -> & F). cbn [run]. pose proof (exit_some t) as X. cbn [enter below] in F. destruct (exit t) as [u|].
  - exists u. split; [reflexivity|]. rewrite X, !map_app in F. apply app_inj_tail in F. destruct F as (F & G). unfold frames. cbn [map]. rewrite G, !map_rev. now rewrite F.
  - rewrite X, map_app in F. cbn [map] in F. now apply app_cons_not_nil in F.
Qed.
Print Assumptions C194_block_names.
(** Names defined, hidden in a block, written there, and seen again. *)
Example C194_nonvacuous :
  let s := define 2 20 (define 1 10 new) in
  binds 1 10 (frames s) /\ balanced [Define 1 11; Set_ 2 21; Enter; Define 3 30; Exit]
  /\ (forall n v, ~ In (Set_ n v) [Define 1 11])
  /\ run [Enter; Define 1 11] s = Some {| top := [(1, 11)]; below := [[(1, 10); (2, 20)]] |}
  /\ run [Enter; Define 1 11; Set_ 2 21; Set_ 1 12; Exit] s = Some {| top := [(1, 10); (2, 21)]; below := [] |}
  /\ set 9 1 s = None /\ run [Enter; Exit; Exit] s = None.
Proof.
  cbn zeta. split; [apply C194_get; reflexivity|]. split.
  - apply B_define, B_set. apply (B_block [Define 3 30] []); [apply B_define; constructor|constructor].
  - split; [intros n v [H|[]]; discriminate|]. repeat split; reflexivity.
Qed.
