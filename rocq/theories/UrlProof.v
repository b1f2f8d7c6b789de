From Coq Require Import String List Arith Bool Lia.
From Verif Require Import UrlModel UrlSpec.
Import ListNotations.

Lemma same_spec a b : same a b = true <-> a = b.
Proof.
  revert b. induction a as [|x a IH]; intros [|y b]; cbn; try (split; congruence).
  rewrite andb_true_iff, Nat.eqb_eq, IH. split; [intros [-> ->]; reflexivity|intros [=]; now split].
Qed.
Lemma same_refl a : same a a = true. Proof. now apply same_spec. Qed.
Lemma same_no a b : a <> b -> same a b = false.
Proof. intros N. destruct (same a b) eqn:E; [apply same_spec in E; contradiction|reflexivity]. Qed.
Lemma digits c : c < 256 -> undigit (digit (c / 16)) = Some (c / 16) /\ undigit (digit (c mod 16)) = Some (c mod 16).
Proof.
  intros L. assert (A : forall n, n < 16 -> undigit (digit n) = Some n).
  { intros n N. do 16 (destruct n as [|n]; [reflexivity|]). lia. }
  split; apply A; [apply Nat.div_lt_upper_bound; lia|apply Nat.mod_upper_bound; lia].
Qed.
Lemma decode_other c r : c <> 37 -> decode (c :: r) = c :: decode r.
Proof. intros N. do 37 (destruct c as [|c]; [reflexivity|]). destruct c; [exfalso; now apply N|reflexivity]. Qed.
Lemma decode_enc set c r : c < 256 -> (c = 37 -> set c = true) -> decode (enc set c ++ r) = c :: decode r.
Proof.
  intros L P. unfold enc. destruct (set c) eqn:S.
  - destruct (digits c L) as [A B]. cbn [app decode]. rewrite A, B. f_equal. rewrite (Nat.div_mod c 16) at 3 by lia. reflexivity.
  - cbn [app]. apply decode_other. intros E. discriminate (P E).
Qed.
Lemma decode_encode set s : Forall (fun c => c < 256) s -> Forall (fun c => c = 37 -> set c = true) s -> decode (encode set s) = s.
Proof.
  intros L P. induction s as [|c s IH]; [reflexivity|]. inversion L; inversion P; subst. unfold encode. cbn [flat_map]. rewrite decode_enc by assumption.
  f_equal. now apply IH.
Qed.
Lemma enc_no_slash set c : c < 256 -> c <> 47 -> ~ In 47 (enc set c).
Proof.
  intros L N. unfold enc. destruct (set c); [|intros [->|[]]; congruence].
  assert (A : forall n, n < 16 -> digit n <> 47) by (intros n H; unfold digit; destruct (n <? 10); lia).
  pose proof (A (c / 16) ltac:(apply Nat.div_lt_upper_bound; lia)). pose proof (A (c mod 16) ltac:(apply Nat.mod_upper_bound; lia)).
  intros [H'|[H'|[H'|[]]]]; congruence.
Qed.
Lemma encode_no_slash set n : Forall (fun c => c < 256) n -> ~ In 47 n -> ~ In 47 (encode set n).
Proof.
  intros L N I. unfold encode in I. apply in_flat_map in I. destruct I as (c & C & I). rewrite Forall_forall in L. apply enc_no_slash in I; auto. intros ->. contradiction.
Qed.
(** Splitting. *)
Lemma split_slash r : split (47 :: r) = [] :: split r. Proof. reflexivity. Qed.
Lemma split_other c r : c <> 47 -> split (c :: r) = match split r with [] => [[c]] | p :: ps => (c :: p) :: ps end.
Proof. intros N. do 47 (destruct c as [|c]; [reflexivity|]). destruct c; [exfalso; now apply N|reflexivity]. Qed.
Lemma split_name n r : ~ In 47 n -> split (n ++ 47 :: r) = n :: split r.
Proof.
  induction n as [|c n IH]; intros N; [reflexivity|]. cbn [app]. rewrite split_other by (intros ->; apply N; now left). rewrite IH by (intros H; apply N; now right). reflexivity.
Qed.
Lemma split_one n : ~ In 47 n -> split n = [n].
Proof.
  induction n as [|c n IH]; intros N; [reflexivity|]. rewrite split_other by (intros ->; apply N; now left). rewrite IH by (intros H; apply N; now right). reflexivity.
Qed.
Lemma split_join l : l <> [] -> Forall (fun n => ~ In 47 n) l -> split (join l) = l.
Proof.
  induction l as [|n l IH]; intros E F; [congruence|]. inversion F; subst. destruct l as [|m l]; [now apply split_one|].
  change (join (n :: m :: l)) with (n ++ 47 :: join (m :: l)). rewrite split_name by assumption. f_equal. apply IH; [discriminate|assumption].
Qed.
Lemma text_join l : l <> [] -> text l = 47 :: join l.
Proof.
  induction l as [|n l IH]; intros E; [congruence|]. destruct l as [|m l]; [cbn; now rewrite app_nil_r|].
  change (text (n :: m :: l)) with ((47 :: n) ++ text (m :: l)). rewrite IH by discriminate. reflexivity.
Qed.
Lemma names_text l : Forall plain l -> names (text l) = l.
Proof.
  intros F. destruct l as [|n l]; [reflexivity|]. rewrite text_join by discriminate. unfold names. rewrite split_slash, split_join; [|discriminate|].
  - cbn [filter same orb negb]. change (if negb (same n [] || same n [46]) then n :: filter (fun m : bytes => negb (same m [] || same m [46])) l else filter (fun m : bytes => negb (same m [] || same m [46])) l)
      with (filter (fun m : bytes => negb (same m [] || same m [46])) (n :: l)).
    generalize dependent (n :: l). intros k0 F. induction F as [|m k P F IH]; [reflexivity|]. cbn [filter]. destruct P as (A & _ & B & _).
    rewrite (same_no m []), (same_no m [46]) by assumption. cbn [orb negb]. now rewrite IH.
  - eapply Forall_impl; [|exact F]. intros m P. apply P.
Qed.
Lemma clean_plain l : Forall plain l -> clean l = l.
Proof.
  intros F. unfold clean. enough (G : forall out, fold_left (fun out n => if same n [46; 46] then removelast out else out ++ [n]) l out = out ++ l) by apply (G []).
  induction F as [|n l P F IH]; intros out; cbn [fold_left]; [now rewrite app_nil_r|].
  rewrite (same_no n [46; 46]) by apply P. rewrite IH. now rewrite <- app_assoc.
Qed.

(** Addresses of files. *)
Lemma file_names l : Forall plain l -> names (flat_map (fun s => 47 :: decode s) (split (tl (match l with [] => [47] | _ => flat_map (fun n => 47 :: encode in_segment n) l end)))) = l.
Proof.
  intros F. destruct l as [|n l]; [reflexivity|]. set (k := n :: l) in *.
  replace (flat_map (fun n => 47 :: encode in_segment n) k) with (text (map (encode in_segment) k)) by (unfold text; rewrite flat_map_concat_map, map_map, <- flat_map_concat_map; reflexivity).
  rewrite text_join by discriminate. cbn [tl]. rewrite split_join; [|discriminate|].
  - replace (flat_map (fun s => 47 :: decode s) (map (encode in_segment) k)) with (text k); [now apply names_text|].
    unfold text. clearbody k. induction F as [|m k P F IH]; [reflexivity|]. cbn [map flat_map]. rewrite IH, decode_encode; [reflexivity|apply P|].
    apply Forall_forall. intros c _ ->. reflexivity.
  - apply Forall_map. eapply Forall_impl; [|exact F]. intros m P. apply encode_no_slash; apply P.
Qed.

(** Addresses of documents without files. *)
Lemma trim_end_id s : s = [] \/ 32 < last s 33 -> trim_end s = s.
Proof.
  induction s as [|c s IH]; intros H; [reflexivity|]. destruct H as [H|H]; [discriminate|]. cbn [trim_end]. destruct s as [|d s].
  - cbn in *. destruct (c <=? 32) eqn:E; [apply Nat.leb_le in E; lia|reflexivity].
  - rewrite IH by (right; exact H). reflexivity.
Qed.
Lemma last_app_cons {A} (a : list A) x b d : last (a ++ x :: b) d = last (x :: b) d.
Proof. induction a as [|y a IH]; [reflexivity|]. cbn [app]. rewrite <- IH. now destruct a. Qed.
Lemma last_join l : l <> [] -> (forall n, In n l -> n <> []) -> last (join l) 33 = last (last l []) 33.
Proof.
  induction l as [|n l IH]; intros E N; [congruence|]. destruct l as [|m l]; [reflexivity|].
  change (join (n :: m :: l)) with (n ++ 47 :: join (m :: l)). change (last (n :: m :: l) []) with (last (m :: l) []).
  rewrite <- IH by (try discriminate; intros k K; apply N; now right).
  assert (J : join (m :: l) <> []) by (destruct l; cbn; [apply N; right; now left|destruct m; discriminate]).
  rewrite last_app_cons. destruct (join (m :: l)) as [|x j]; [congruence|reflexivity].
Qed.
Lemma filter_id {A} (f : A -> bool) l : Forall (fun x => f x = true) l -> filter f l = l.
Proof. intros F. induction F as [|x l E F IH]; [reflexivity|]. cbn. now rewrite E, IH. Qed.
Lemma until_id s : Forall (fun c => c <> 63 /\ c <> 35) s -> until_query s = s.
Proof.
  intros F. induction F as [|c s [A B] F IH]; [reflexivity|]. cbn [until_query]. rewrite (proj2 (Nat.eqb_neq _ _) A), (proj2 (Nat.eqb_neq _ _) B). cbn. now rewrite IH.
Qed.
Lemma forall_join (P : nat -> Prop) l : P 47 -> Forall (Forall P) l -> Forall P (join l).
Proof.
  intros S F. induction F as [|n l H F IH]; [constructor|]. destruct l as [|m l]; [exact H|].
  change (join (n :: m :: l)) with (n ++ 47 :: join (m :: l)). apply Forall_app. split; [exact H|now constructor].
Qed.
Lemma cleaned s : s = [] \/ 32 < last s 33 -> Forall (fun c => ~ In c [37; 63; 35; 9; 10; 13]) s ->
  until_query (filter (fun c => negb ((c =? 9) || (c =? 10) || (c =? 13))) (trim_end s)) = s.
Proof.
  intros T F. rewrite trim_end_id by exact T. rewrite filter_id; [apply until_id|].
  - eapply Forall_impl; [|exact F]. intros c N. cbn beta in N. split; intros ->; apply N; cbn; tauto.
  - eapply Forall_impl; [|exact F]. intros c N. cbn beta in N.
    rewrite (proj2 (Nat.eqb_neq c 9)), (proj2 (Nat.eqb_neq c 10)), (proj2 (Nat.eqb_neq c 13)); [reflexivity|..]; intros ->; apply N; cbn; tauto.
Qed.
Lemma encode_app set a b : encode set (a ++ b) = encode set a ++ encode set b. Proof. apply flat_map_app. Qed.
Lemma encode_join set l : set 47 = false -> encode set (join l) = join (map (encode set) l).
Proof.
  intros S. induction l as [|n l IH]; [reflexivity|]. destruct l as [|m l]; [reflexivity|].
  change (join (n :: m :: l)) with (n ++ 47 :: join (m :: l)). rewrite encode_app. change (map (encode set) (n :: m :: l)) with (encode set n :: encode set m :: map (encode set) l).
  change (join (encode set n :: encode set m :: map (encode set) l)) with (encode set n ++ 47 :: join (map (encode set) (m :: l))). rewrite <- IH. f_equal.
  unfold encode at 1. cbn [flat_map]. unfold enc at 1. rewrite S. reflexivity.
Qed.
Lemma sendable_join l : Forall plain l -> sendable l -> (join l = [] \/ 32 < last (join l) 33) /\ Forall (fun c => ~ In c [37; 63; 35; 9; 10; 13]) (join l).
Proof.
  intros P [S L]. split.
  - destruct l as [|n l]; [now left|]. right. rewrite last_join; [|discriminate|].
    + apply L. destruct (exists_last (l := n :: l)) as (k & x & ->); [discriminate|]. rewrite last_last. apply in_or_app. right. now left.
    + intros m M. rewrite Forall_forall in P. now apply P.
  - apply forall_join; [cbn; intuition discriminate|exact S].
Qed.
Lemma decoded set l : set 47 = false -> Forall plain l -> sendable l -> l <> [] ->
  flat_map (fun s => 47 :: decode s) (split (encode set (join l))) = text l.
Proof.
  intros S P [D _] E. rewrite encode_join by exact S. rewrite split_join; [|now destruct l|].
  - unfold text. clear E. induction P as [|n l N P IH]; [reflexivity|]. inversion D; subst. cbn [map flat_map]. rewrite IH by assumption. rewrite decode_encode; [reflexivity|apply N|].
    eapply Forall_impl; [|exact H1]. intros c C ->. exfalso. apply C. now left.
  - apply Forall_map. eapply Forall_impl; [|exact P]. intros m M. apply encode_no_slash; apply M.
Qed.
Lemma plain_untitled : plain (lit "untitled").
Proof. repeat split; try discriminate; [cbn; intuition discriminate|repeat constructor]. Qed.
Section L.
Variable lossy : bytes -> bytes.
Lemma back l : Forall plain l -> lossy (text (lit "untitled" :: l)) = text (lit "untitled" :: l) ->
  clean (names (lossy (lit "/untitled" ++ text l))) = lit "untitled" :: l.
Proof.
  intros P E. change (lit "/untitled" ++ text l) with (text (lit "untitled" :: l)). rewrite E. assert (Q : Forall plain (lit "untitled" :: l)) by (constructor; [apply plain_untitled|exact P]).
  rewrite names_text by exact Q. now apply clean_plain.
Qed.
Lemma untitled_back l : l <> [] -> Forall plain l -> sendable l -> lossy (text (lit "untitled" :: l)) = text (lit "untitled" :: l) ->
  url_to_path lossy (untitled_url (join l)) = Some (Abs (lit "untitled" :: l)) /\
  url_to_path lossy (untitled_url (47 :: join l)) = Some (Abs (lit "untitled" :: l)).
Proof.
  intros N P S E. destruct (sendable_join l P S) as [T F]. split.
  - unfold untitled_url. rewrite cleaned by assumption. assert (H : forall r, join l <> 47 :: r).
    { intros r H. destruct l as [|[|c n] l]; [congruence| |]; inversion P; subst; [destruct H2; congruence|]. destruct l; cbn in H; injection H as -> _; destruct H2 as (_ & H2 & _); apply H2; now left. }
    assert (G : (match join l with 47 :: _ => mkUrl (lit "untitled") None false (encode in_path (join l)) | _ => mkUrl (lit "untitled") None true (encode control (join l)) end)
      = mkUrl (lit "untitled") None true (encode control (join l))).
    { destruct (join l) as [|c r]; [reflexivity|]. do 47 (destruct c as [|c]; [reflexivity|]). destruct c; [|reflexivity]. now specialize (H r). }
    rewrite G. unfold url_to_path. cbn [u_scheme u_path]. change (same (lit "untitled") (lit "file")) with false. change (same (lit "untitled") (lit "untitled")) with true. cbv zeta iota.
    assert (K : (match encode control (join l) with 47 :: r => r | p => p end) = encode control (join l)).
    { assert (X : exists d r, encode control (join l) = d :: r /\ d <> 47).
      { destruct l as [|n l]; [congruence|]. inversion P; subst. destruct H2 as (A & B & _ & _ & C). destruct n as [|c n]; [congruence|].
        inversion C; subst. assert (c <> 47) by (intros ->; apply B; now left).
        destruct l; cbn [join app encode flat_map]; unfold enc at 1; destruct (control c); cbn [app]; eexists _, _; (split; [reflexivity|]); try assumption; discriminate. }
      destruct X as (d & r & EQ & X). rewrite EQ. do 47 (destruct d as [|d]; [reflexivity|]). destruct d; [exfalso; now apply X|reflexivity]. }
    rewrite K, decoded by (try reflexivity; assumption). now rewrite back.
  - assert (T2 : (47 :: join l = [] \/ 32 < last (47 :: join l) 33)) by (right; destruct T as [->|T]; [cbn; lia|]; destruct (join l); [cbn; lia|exact T]).
    assert (F2 : Forall (fun c => ~ In c [37; 63; 35; 9; 10; 13]) (47 :: join l)) by (constructor; [cbn; intuition discriminate|exact F]).
    unfold untitled_url. rewrite cleaned by assumption. unfold url_to_path. cbn [u_scheme u_path]. change (same (lit "untitled") (lit "file")) with false. change (same (lit "untitled") (lit "untitled")) with true. cbv zeta iota.
    change (encode in_path (47 :: join l)) with (47 :: encode in_path (join l)). cbv iota. rewrite decoded by (try reflexivity; assumption). now rewrite back.
Qed.
End L.
