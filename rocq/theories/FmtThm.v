(** C43: formatting edits. *)
From Coq Require Import List NArith Arith Bool Lia.
From Verif Require Import TextModel TextSpec TextProof FmtModel FmtSpec FmtProof.
Import ListNotations.

(** C43: no edit is returned exactly if the formatter changes nothing. *)
Theorem C43_nothing : forall old new e, calc_diff old new e = Some [] <-> old = new.
Proof. intros old new e. split; [apply calc_none|intros ->; apply calc_same]. Qed.
Print Assumptions C43_nothing.
(** C43: the edit turns the old text into the new one, in both encodings, unless the parts that
    differ end with characters that share their last byte.  What is missing: those. *)
Theorem C43_edit_partial : forall a m m' z e, differ_in a m m' z ->
  exists cs, calc_diff (a ++ m ++ z) (a ++ m' ++ z) e = Some cs /\ length cs <= 1 /\ apply_changes e (a ++ m ++ z) cs = Some (a ++ m' ++ z).
Proof. exact edit_server. Qed.
Print Assumptions C43_edit_partial.
(** C43: the same for the client, if the old text has no CR LF line breaks. *)
Theorem C43_client_partial : forall a m m' z, plain (a ++ m ++ z) -> differ_in a m m' z ->
  (forall p s, a ++ m ++ z = p ++ s -> ~ inside_crlf p s) ->
  exists cs, calc_diff (a ++ m ++ z) (a ++ m' ++ z) Utf16 = Some cs /\ client_edits (a ++ m ++ z) cs (a ++ m' ++ z).
Proof. exact edit_client. Qed.
Print Assumptions C43_client_partial.
(** C43: in particular, every two texts of ASCII characters. *)
Theorem C43_ascii : forall old new e, Forall (fun c => (c < 128)%N) old -> Forall (fun c => (c < 128)%N) new ->
  exists cs, calc_diff old new e = Some cs /\ length cs <= 1 /\ apply_changes e old cs = Some new.
Proof.
  intros old new e A B. destruct (common_end old new) as (m & m' & z & -> & -> & K). apply (edit_server [] m m' z e).
  destruct K as [->|[->|(n & c & n' & c' & -> & -> & NE)]]; [now left|right; now left|right; right]. exists n, c, n', c'. repeat split.
  rewrite !Forall_app in A, B. destruct A as [[_ A] _], B as [[_ B] _]. inversion A; subst. inversion B; subst. unfold last_byte.
  replace (c <? 128)%N with true by (symmetry; now apply N.ltb_lt). replace (c' <? 128)%N with true by (symmetry; now apply N.ltb_lt). exact NE.
Qed.
Print Assumptions C43_ascii.
(** C43: insertions and deletions, of any characters. *)
Theorem C43_insert_delete : forall a m z e,
  (exists cs, calc_diff (a ++ m ++ z) (a ++ z) e = Some cs /\ apply_changes e (a ++ m ++ z) cs = Some (a ++ z)) /\
  (exists cs, calc_diff (a ++ z) (a ++ m ++ z) e = Some cs /\ apply_changes e (a ++ z) cs = Some (a ++ m ++ z)).
Proof.
  intros a m z e. split.
  - destruct (edit_server a m [] z e) as (cs & A & _ & B); [right; now left|]. eauto.
  - destruct (edit_server a [] m z e) as (cs & A & _ & B); [now left|]. eauto.
Qed.
Print Assumptions C43_insert_delete.
Example C43_nonvacuous : differ_in [97]%N [32; 233]%N [233; 33]%N [8211; 10]%N /\ plain ([97] ++ [32; 233] ++ [8211; 10])%N /\
  (forall p s, ([97] ++ [32; 233] ++ [8211; 10])%N = p ++ s -> ~ inside_crlf p s) /\
  calc_diff [97; 32; 233; 8211; 10]%N [97; 233; 33; 8211; 10]%N Utf16 = Some [mkChange (Some (mkRange (mkPos 0 1) (mkPos 0 3))) [233; 33]%N] /\
  apply_changes Utf16 [97; 32; 233; 8211; 10]%N [mkChange (Some (mkRange (mkPos 0 1) (mkPos 0 3))) [233; 33]%N] = Some [97; 233; 33; 8211; 10]%N.
Proof.
  split; [right; right; exists [32%N], 233%N, [233%N], 33%N; repeat split; vm_compute; discriminate|]. split.
  { intros c H. cbn in H. repeat (destruct H as [<-|H]; [reflexivity|]). destruct H. }
  split; [|split; vm_compute; reflexivity].
  intros p s E (p' & s' & -> & ->). assert (I : In CR ([97] ++ [32; 233] ++ [8211; 10])%N) by (rewrite E; apply in_or_app; left; apply in_or_app; right; now left).
  cbn in I. repeat (destruct I as [I|I]; [discriminate|]). destruct I.
Qed.
(** C43: characters that share their last byte: the change is lost ... *)
Theorem C43_lost_refuted : exists old new cs, old <> new /\ calc_diff old new Utf16 = Some cs /\ apply_changes Utf16 old cs = Some old.
Proof. exists [233]%N, [297]%N, [mkChange (Some (mkRange (mkPos 0 0) (mkPos 0 0))) []]. repeat split; vm_compute; congruence. Qed.
Print Assumptions C43_lost_refuted.
(** ... even if the texts have different lengths ... *)
Theorem C43_lost_longer_refuted : exists old new cs, length old <> length new /\ calc_diff old new Utf16 = Some cs /\ apply_changes Utf16 old cs = Some old.
Proof. exists [97; 233]%N, [12329]%N, [mkChange (Some (mkRange (mkPos 0 0) (mkPos 0 0))) []]. repeat split; vm_compute; congruence. Qed.
Print Assumptions C43_lost_longer_refuted.
(** ... or the task panics (or, without overflow checks, never ends). *)
Theorem C43_panic_refuted : exists old new, calc_diff old new Utf16 = None.
Proof. exists [233]%N, [12329]%N. vm_compute. reflexivity. Qed.
Print Assumptions C43_panic_refuted.
(** C43: changing CR LF line breaks to LF gives an edit that ends inside of a line break; it has
    no meaning for the client. *)
Theorem C43_crlf_refuted : exists old new r w, plain old /\ calc_diff old new Utf16 = Some [mkChange (Some r) w] /\
  forall t', ~ client_edits old [mkChange (Some r) w] t'.
Proof.
  exists [97; 13; 10; 98]%N, [97; 10; 98]%N, (mkRange (mkPos 0 1) (mkPos 0 2)), [].
  split; [intros c H; cbn in H; repeat (destruct H as [<-|H]; [reflexivity|]); destruct H|]. split; [vm_compute; reflexivity|].
  intros t' H. inversion H as [|? ? C]; subst. inversion C as [|? ? p m s ? A B]; subst.
  destruct B as (_ & r & rest & E & _ & NN & L). cbn [p_line p_char] in *. change (split_lines lsp_nl [97; 13; 10; 98]%N) with [[97; 13; 10]; [98]]%N in E. cbn in E.
  injection E as E. destruct r as [|r0 [|r1 r]]; cbn in E; [cbn in L; discriminate| |].
  - injection E as <- <-. vm_compute in L. discriminate.
  - injection E as <- <- _. specialize (NN 13%N). cbn in NN. discriminate NN. auto.
Qed.
Print Assumptions C43_crlf_refuted.
