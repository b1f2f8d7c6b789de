From Coq Require Import List NArith Bool Lia.
From Verif Require Import DigModel DigProof PageModel PageProof PathModel PathProof OrigModel OrigSpec.
Import ListNotations.
Open Scope N_scope.

Section Reads.
Context (P : list chr -> option url) (good : origin -> Prop) (R : reads P good).
Lemma print_read o e : good o -> good e -> print_origin o = print_origin e -> o_scheme o = o_scheme e /\ o_host o = o_host e /\ strip o = strip e.
Proof.
  intros G1 G2 E. destruct (R o G1) as (p & _ & A), (R e G2) as (q & _ & B). rewrite E, B in A. injection A as ? ? ? _. auto.
Qed.
Lemma print_same o e : good o -> good e -> canonical o -> (print_origin o = print_origin e <-> o = e).
Proof.
  intros G1 G2 C. split; [|now intros ->]. intros E. destruct (print_read o e G1 G2 E) as (A & B & D).
  destruct o as [s h p], e as [s' h' p']. cbn in A, B. subst s' h'. f_equal. unfold canonical in C. rewrite C in D. cbn [o_port] in D.
  unfold strip in D. cbn [o_port o_scheme] in D. destruct p' as [n|]; [|exact D]. destruct (default_port s) as [d|]; [|exact D].
  destruct (n =? d); [|exact D]. subst p. exfalso. unfold print_origin in E. cbn [o_scheme o_host o_port] in E.
  apply app_inv_head in E. apply app_inv_head in E. apply app_inv_head in E. discriminate.
Qed.
Lemma valid_iff g addr port h o : runs P addr h -> good (own h port) -> (forall x, g = Some x -> good (gitpod_origin port x)) -> good o -> canonical o ->
  exists b, valid_origin P g addr port (print_origin o) = Some b /\ (b = true <-> allowed g h port o).
Proof.
  intros (u & U1 & U2) GO GG G C. unfold valid_origin. destruct (R o G) as (path & PA & E). rewrite E. cbn [u_path u_scheme u_host].
  assert (X : negb (text_eqb path [47]) && negb (text_eqb path []) = false) by (destruct PA as [-> | ->]; reflexivity). rewrite X.
  unfold expected. rewrite U1, U2.
  assert (EQ : http_pre ++ h ++ 58 :: print_num 10 port = print_origin (own h port)) by reflexivity. rewrite EQ.
  eexists. split; [reflexivity|]. unfold allowed. rewrite !orb_true_iff, andb_true_iff, orb_true_iff, !text_eqb_spec.
  rewrite (print_same o (own h port)) by auto.
  assert (GP : match gitpod g port with Some t => text_eqb t (print_origin o) | None => false end = true <-> exists x, g = Some x /\ o = gitpod_origin port x).
  { destruct g as [x|]; [|split; [discriminate|intros (x & H & _); discriminate]].
    assert (EG : gitpod (Some x) port = Some (print_origin (gitpod_origin port x))).
    { unfold gitpod, option_map, print_origin, gitpod_origin. cbn [o_scheme o_host o_port]. now rewrite app_nil_r. }
    rewrite EG, text_eqb_spec. split.
    - intros H. exists x. split; auto. now apply print_same; auto.
    - intros (y & [= <-] & ->). reflexivity. }
  rewrite GP. tauto.
Qed.
Theorem accepts g addr port h o : runs P addr h -> good (own h port) -> (forall x, g = Some x -> good (gitpod_origin port x)) -> good o -> canonical o ->
  forall up path, let r := mkReq (Some (print_origin o)) up path in
  (allowed g h port o -> serve P g addr port r = if up then Websocket else if text_eqb path [47] then Page else Redirect) /\
  (~ allowed g h port o -> serve P g addr port r = Closed).
Proof.
  intros A B C D E up path. cbn zeta. destruct (valid_iff g addr port h o A B C D E) as (b & V & I). unfold serve. cbn [r_origin r_upgrade r_path]. rewrite V. destruct b; split; auto.
  - intros H. destruct H. now apply I.
  - intros H. apply I in H. discriminate.
Qed.
End Reads.
Lemma unread P g addr port h up path : P h = None -> serve P g addr port (mkReq (Some h) up path) = Closed.
Proof. intros H. unfold serve, valid_origin. cbn. now rewrite H. Qed.
Lemma with_path P g addr port h up path u : P h = Some u -> u_path u <> [47] -> u_path u <> [] -> serve P g addr port (mkReq (Some h) up path) = Closed.
Proof.
  intros H A B. unfold serve, valid_origin. cbn. rewrite H.
  destruct (text_eqb (u_path u) [47]) eqn:E1; [apply text_eqb_spec in E1; contradiction|]. destruct (text_eqb (u_path u) []) eqn:E2; [apply text_eqb_spec in E2; contradiction|]. reflexivity.
Qed.
Lemma no_crash P g addr port h r : runs P addr h -> serve P g addr port r <> Crashed.
Proof.
  intros (u & U1 & U2). unfold serve, valid_origin, expected. rewrite U1, U2. destruct (r_origin r) as [o|].
  - destruct (P o); [destruct (_ && _)|]; try discriminate. destruct (_ || _); try discriminate. destruct (r_upgrade r); try discriminate. destruct (text_eqb _ _); discriminate.
  - destruct (r_upgrade r); try discriminate. destruct (text_eqb _ _); discriminate.
Qed.

(** * A parser that reads origins *)
Definition simple (s : list chr) : option url :=
  match split 58 s with
  | [sc; 47 :: 47 :: h] => Some (mkUrl sc (Some h) None [47])
  | [sc; 47 :: 47 :: h; p] =>
      match parse_num 10 65535 p with Some n => Some (mkUrl sc (Some h) (strip (mkO sc h (Some n))) [47]) | None => None end
  | _ => None
  end.
Definition plain_origin (o : origin) : Prop := ~ In 58 (o_scheme o) /\ ~ In 58 (o_host o) /\ match o_port o with Some n => n <= 65535 | None => True end.
Lemma num_no n c : (c < 48 \/ 57 < c) -> ~ In c (print_num 10 n).
Proof.
  intros H X. pose proof (print_chars 10 n ltac:(lia) ltac:(lia)) as F. rewrite Forall_forall in F. destruct (F _ X) as (d & D & ->).
  unfold dchar in H. destruct (N.ltb_spec d 10); lia.
Qed.
Lemma simple_reads : reads simple plain_origin.
Proof.
  intros [s h p] (A & B & C). cbn in A, B, C. exists [47]. split; auto. unfold simple, print_origin. cbn [o_scheme o_host o_port].
  assert (SH : forall q, split 58 (s ++ [58; 47; 47] ++ h ++ q) = s :: split 58 ((47 :: 47 :: h) ++ q)) by (intros q; apply (split_app 58 s ((47 :: 47 :: h) ++ q)); auto).
  rewrite SH.
  assert (NH : ~ In 58 (47 :: 47 :: h)) by (intros [X|[X|X]]; try discriminate; auto).
  destruct p as [n|].
  - rewrite split_app by auto. rewrite split_none by (apply num_no; lia). rewrite parse_print by (auto; lia). reflexivity.
  - rewrite app_nil_r, split_none by auto. unfold strip. cbn. reflexivity.
Qed.

(** * The timings *)
Lemma starts_spec p : forall s, starts p s = true <-> exists r, s = p ++ r.
Proof.
  induction p as [|x p IH]; intros s; cbn [starts app]; [split; eauto|]. destruct s as [|y s]; [split; [discriminate|intros (r & H); discriminate]|].
  rewrite andb_true_iff, N.eqb_eq, IH. split; [intros (-> & r & ->); eauto|intros (r & [= -> ->]); eauto].
Qed.
Lemma cut_eq (c : chr) (a b x y : list chr) : ~ In c a -> ~ In c b -> a ++ c :: x = b ++ c :: y -> a = b.
Proof.
  intros A B E. apply (f_equal (split c)) in E. rewrite !split_app in E by auto. now injection E.
Qed.
Lemma trace_iff o : ~ In 58 (o_scheme o) -> starts vscode_pre (print_origin o) = true <-> o_scheme o = s_vscode.
Proof.
  intros H. rewrite starts_spec. unfold vscode_pre, print_origin. split.
  - intros (r & E). rewrite <- app_assoc in E. cbn [app] in E. change (s_vscode ++ 58 :: 47 :: 47 :: r) with (s_vscode ++ 58 :: (47 :: 47 :: r)) in E.
    apply cut_eq in E; auto. cbn. intros X. repeat (destruct X as [X|X]; [discriminate|]). auto.
  - intros ->. exists (o_host o ++ match o_port o with Some n => 58 :: print_num 10 n | None => [] end). now rewrite <- app_assoc.
Qed.
