(** Theorems about the routes of editor updates (C23, C65). *)
From Coq Require Import List Arith Bool Lia.
From Verif Require Import AssocModel MemModel MemSpec MemProof.
Import ListNotations.

(** ** C23 *)

(** When no update overtakes others that are on their way through the watcher,
    and all have come back, the compiler sees what the editor has. *)
Theorem C23_editor_updates_arrive_partial : forall es, in_order init es -> m_sent (run init es) = [] ->
  forall p, m_shadow (run init es) p = editor p es None.
Proof. exact in_order_delivered. Qed.
Print Assumptions C23_editor_updates_arrive_partial.

Definition insert (p c : nat) : event := Edit (mkUpdate false [] [(p, c)]).
Definition close (p : nat) : event := Edit (mkUpdate false [p] []).
(** Two files are opened; one is closed and opened again while the close is on
    its way; later the other one changes and everything is replaced. *)
Definition session : list event :=
  [insert 1 10; insert 2 20; close 1; insert 2 21; insert 1 11; Return; Return; Return; insert 2 22;
   Edit (mkUpdate true [] [(2, 23)]); Return; insert 3 30].
Example C23_nonvacuous : in_order init session /\ m_sent (run init session) = [] /\
  map (m_shadow (run init session)) [1; 2; 3] = [None; Some 23; Some 30] /\
  snd (step (run init [insert 1 10]) (close 1)) = OSent [1].
Proof.
  split; [|vm_compute; auto].
  unfold session, insert, close. cbn [in_order]. repeat (split; [vm_compute; try (intros H u; discriminate); intros H; congruence|]). exact I.
Qed.

(** The tick that should tell the updates apart is never raised, so an update
    can overtake a delayed one and is then undone by it. *)
Theorem C23_overtaken_update_refuted : exists es p, m_sent (run init es) = [] /\
  editor p es None = Some 12 /\ m_shadow (run init es) p = Some 11.
Proof.
  exists [insert 1 10; insert 2 20; close 2; insert 1 11; Return; insert 1 12; Return], 1. vm_compute. auto.
Qed.
Print Assumptions C23_overtaken_update_refuted.

(** ** C65 *)

(** Whatever the history: an update after which a file is no longer open in the
    editor is sent to the watcher with a request to read that file. *)
Theorem C65_closed_files_are_reread : forall es u p c, editor p es None = Some c -> editor p (es ++ [Edit u]) None = None ->
  exists files, snd (step (run init es) (Edit u)) = OSent files /\ In p files.
Proof. exact closed_is_reread. Qed.
Print Assumptions C65_closed_files_are_reread.
(** And the estimate of open files the decision rests on is exact. *)
Theorem C65_open_files_are_known : forall es p, In p (m_est (run init es)) <-> exists c, editor p es None = Some c.
Proof. exact estimate_exact. Qed.
Print Assumptions C65_open_files_are_known.
Example C65_nonvacuous : editor 2 [insert 1 10; insert 2 20; close 1] None = Some 20 /\
  editor 2 ([insert 1 10; insert 2 20; close 1] ++ [Edit (mkUpdate true [] [(1, 5)])]) None = None.
Proof. vm_compute. auto. Qed.
