(** Theorems about translations. *)
From Coq Require Import String.
From Coq Require Import List Arith NArith Bool Lia Permutation.
From Verif Require Import LocModel LocSpec LocProof.
Import ListNotations.
Local Open Scope nat_scope.

(** * C149: the arguments of a message *)

(** Whatever the message, the text is the message with its placeholders
    replaced and the character after each placeholder lost. *)
Theorem C149_message : forall g key message args,
  exists out, said args (find_message g key message) out /\ t_with_args g key message args = out.
Proof.
  intros g key message args. unfold t_with_args. destruct (said_total args (length (find_message g key message)) (find_message g key message)) as (out & H); [auto|]. exists out. split; [auto|]. eapply interp_said; eauto.
Qed.
Print Assumptions C149_message.
(** This determines the text. *)
Theorem C149_determined : forall args s out out', said args s out -> said args s out' -> out = out'.
Proof. intros args s out out' H H'. rewrite <- (interp_said _ _ _ H (length s)), <- (interp_said _ _ _ H' (length s)); auto. Qed.
Print Assumptions C149_determined.
(** So a message without placeholders is itself, and one whose only
    placeholder ends it is exact. *)
Theorem C149_last_partial : forall g key message args t n v,
  ~ In 123%N t -> ~ In 125%N n -> value_of args n v -> find_message g key message = t ++ 123%N :: n ++ [125%N] -> t_with_args g key message args = t ++ v.
Proof. intros g key message args t n v Ht Hn Hv E. unfold t_with_args. rewrite E. apply interp_said; [|auto]. apply said_last; auto. left. auto. Qed.
Print Assumptions C149_last_partial.
Theorem C149_plain : forall g key message args, ~ In 123%N (find_message g key message) -> t_with_args g key message args = find_message g key message.
Proof. intros g key message args H. apply interp_said; [|auto]. constructor. auto. Qed.
Print Assumptions C149_plain.
(** The text after a placeholder loses its first character. *)
Theorem C149_meant_refuted : exists g key message args out,
  meant args message out /\ find_message g key message = message /\ t_with_args g key message args <> out.
Proof.
  exists {| all := None; current := None |}, (lit "k"), (lit "{p} not found"), [(lit "p", lit "file")], (lit "file not found"). split; [|split; [reflexivity|vm_compute; discriminate]].
  apply (meant_hole _ [] (lit "p") (lit " not found") (lit "file") (lit " not found")).
  - intros [].
  - intros [H|[]]. discriminate.
  - exists [], []. split; [reflexivity|intros v' []].
  - constructor. cbv. intros H. repeat (destruct H as [H|H]; [discriminate|]). auto.
Qed.
Print Assumptions C149_meant_refuted.
Example C149_nonvacuous :
  let g := {| all := None; current := Some [(lit "k", lit "saved {p}")] |} in
  t_with_args g (lit "k") (lit "x") [(lit "p", lit "file")] = lit "saved file" /\
  t_with_args g (lit "j") (lit "{p} is {q}!") [(lit "p", lit "A"); (lit "q", lit "B")] = lit "Ais B" /\
  t_with_args g (lit "j") (lit "see {z}, ok") [(lit "p", lit "A")] = lit "see {z ok".
Proof. repeat split; reflexivity. Qed.

(** * C150: the locale *)

(** Translations can be set once. *)
Theorem C150_once : forall t t' g, all g = None ->
  all (set_translations t g) = Some t /\ set_translations t' (set_translations t g) = set_translations t g /\ current (set_translations t g) = current g.
Proof. intros t t' g H. unfold set_translations. rewrite H. cbn. auto. Qed.
Print Assumptions C150_once.
(** A locale of the translations is chosen. *)
Theorem C150_exact : forall lower locale g t m, all g = Some t -> lookup (lower locale) t = Some m ->
  set_locale lower locale g = ({| all := Some t; current := Some m |}, true).
Proof. intros lower locale g t m H E. unfold set_locale. rewrite H, E. auto. Qed.
Print Assumptions C150_exact.
Lemma bytes_ascii k : (forall c, In c k -> (c < 128)%N) -> bytes k = length k.
Proof.
  induction k as [|c k IH]; intros H; [auto|]. cbn. destruct (N.ltb_spec c 128) as [_|Hc]; [change (S (bytes k) = S (length k)); f_equal; apply IH; intros d Hd; apply H; right; auto|]. specialize (H c (or_introl eq_refl)). lia.
Qed.
Lemma region_iff locale k : (forall c, In c k -> (c < 128)%N) -> (region_of locale k = true <-> exists r, locale = k ++ 45%N :: r).
Proof.
  intros Hk. unfold region_of. rewrite bytes_ascii by auto. pose proof (strip_spec k locale) as S. destruct (strip_prefix k locale) as [t|].
  - subst. rewrite nth_error_app2 by lia. rewrite Nat.sub_diag. destruct t as [|c t]; cbn.
    + split; [discriminate|]. intros (r & H). apply (f_equal (@length N)) in H. rewrite !app_length in H. cbn in H. lia.
    + rewrite N.eqb_eq. split; [intros ->; eauto|]. intros (r & H). apply app_inv_head in H. congruence.
  - split; [discriminate|]. intros (r & H). exfalso. eapply S; eauto.
Qed.
(** Otherwise the only language that is followed by a hyphen, whatever the
    order of the map. *)
Theorem C150_region_partial : forall lower locale g t k m r, all g = Some t -> NoDup (map fst t) ->
  (forall k' c, In k' (map fst t) -> In c k' -> (c < 128)%N) ->
  lookup (lower locale) t = None -> In (k, m) t -> lower locale = k ++ 45%N :: r ->
  (forall k' r', In k' (map fst t) -> lower locale = k' ++ 45%N :: r' -> k' = k) ->
  set_locale lower locale g = ({| all := Some t; current := Some m |}, true).
Proof.
  intros lower locale g t k m r H Hd Ha Hn Hi E Hu. unfold set_locale. rewrite H, Hn. destruct (find (fun p => region_of (lower locale) (fst p)) t) as [[k' m']|] eqn:F.
  - apply find_some in F. destruct F as (F1 & F2). cbn in F2. assert (Hk' : In k' (map fst t)) by (apply in_map_iff; exists (k', m'); auto). apply region_iff in F2; [|eauto]. destruct F2 as (r' & F2). rewrite (Hu k' r' Hk' F2) in *. cbn. rewrite (nodup_fun _ _ _ _ Hd F1 Hi). auto.
  - exfalso. apply (find_none _ _ F) in Hi as Hf. cbn in Hf. assert (Hk' : In k (map fst t)) by (apply in_map_iff; exists (k, m); auto). rewrite (proj2 (region_iff (lower locale) k (fun c => Ha k c Hk'))) in Hf; [discriminate|eauto].
Qed.
Print Assumptions C150_region_partial.
(** A locale without a language changes nothing. *)
Theorem C150_none : forall lower locale g, (forall t, all g = Some t -> (forall k' c, In k' (map fst t) -> In c k' -> (c < 128)%N) /\
    forall k, In k (map fst t) -> lower locale <> k /\ forall r, lower locale <> k ++ 45%N :: r) ->
  set_locale lower locale g = (g, false).
Proof.
  intros lower locale g H. unfold set_locale. destruct (all g) as [t|]; [|auto]. destruct (H t eq_refl) as (Ha & Hk). assert (E : lookup (lower locale) t = None).
  { apply lookup_none. intros Hi. destruct (Hk _ Hi). auto. }
  rewrite E. destruct (find (fun p => region_of (lower locale) (fst p)) t) as [[k' m']|] eqn:F; [|auto]. apply find_some in F. destruct F as (F1 & F2). cbn in F2. assert (Hk' : In k' (map fst t)) by (apply in_map_iff; exists (k', m'); auto).
  apply region_iff in F2; [|eauto]. destruct F2 as (r & F2). exfalso. destruct (Hk _ Hk') as (_ & G). eapply G; eauto.
Qed.
Print Assumptions C150_none.
(** The message is the one of the locale, or else the message of the program. *)
Theorem C150_message : forall g key message,
  (forall m t, current g = Some m -> lookup key m = Some t -> find_message g key message = t) /\
  (current g = None \/ (exists m, current g = Some m /\ ~ In key (map fst m)) -> find_message g key message = message).
Proof.
  intros g key message. unfold find_message. split.
  - intros m t -> ->. auto.
  - intros [->|(m & -> & H)]; [auto|]. apply lookup_none in H. rewrite H. auto.
Qed.
Print Assumptions C150_message.
(** With two such languages the order of the map decides. *)
Theorem C150_order_refuted : exists lower locale g g' t t', all g = Some t /\ all g' = Some t' /\ Permutation t t' /\ NoDup (map fst t) /\
  current (fst (set_locale lower locale g)) <> current (fst (set_locale lower locale g')).
Proof.
  set (a := (lit "zh", [(lit "k", lit "1")])). set (b := (lit "zh-hant", [(lit "k", lit "2")])).
  exists (fun s => s), (lit "zh-hant-tw"), {| all := Some [a; b]; current := None |}, {| all := Some [b; a]; current := None |}, [a; b], [b; a].
  split; [reflexivity|]. split; [reflexivity|]. split; [apply perm_swap|]. split; [|vm_compute; discriminate].
  cbn. constructor; [intros [H|[]]; discriminate|]. constructor; [intros []|constructor].
Qed.
Print Assumptions C150_order_refuted.
(** A language that is written with a capital letter cannot be chosen. *)
Theorem C150_capital_refuted : exists lower locale g t, all g = Some t /\ In locale (map fst t) /\ set_locale lower locale g = (g, false).
Proof.
  exists (map (fun c => if N.leb 65 c && N.leb c 90 then c + 32 else c)%N), (lit "zh-CN"), {| all := Some [(lit "zh-CN", [])]; current := None |}, [(lit "zh-CN", [])].
  split; [reflexivity|]. split; [left; reflexivity|]. vm_compute. reflexivity.
Qed.
Print Assumptions C150_capital_refuted.
Example C150_nonvacuous :
  let t := [(lit "en", [(lit "k", lit "E")]); (lit "zh", [(lit "k", lit "Z")])] in
  let g := set_translations t {| all := None; current := None |} in
  let g1 := set_locale (fun s => s) (lit "zh-cn") g in
  snd g1 = true /\ find_message (fst g1) (lit "k") (lit "m") = lit "Z" /\ find_message (fst g1) (lit "j") (lit "m") = lit "m" /\
  set_locale (fun s => s) (lit "fr") (fst g1) = (fst g1, false).
Proof. repeat split; reflexivity. Qed.

(** * C151: the file of translations *)

(** A readable file is read, and for each key and language the last value counts,
    in both orders of the map. *)
Theorem C151_read : forall s ls ts, lines_of s ls -> reads [] ls ts -> forall key_first,
  exists m, deserialize s key_first = Ok m /\
    forall k l v, lookup2 (if key_first then k else l) (if key_first then l else k) m = Some v <-> last_value ts k l v.
Proof.
  intros s ls ts Hs Hr kf. exists (fold_left (add kf) ts []). split.
  - unfold deserialize. rewrite useful_keep, (split_fun _ _ Hs). apply read_fun. auto.
  - intros k l v. rewrite fold_lookup, fold_last. split; [|auto]. intros [H|(H & _)]; [auto|]. destruct kf; discriminate.
Qed.
Print Assumptions C151_read.
(** Only a readable file is read. *)
Theorem C151_readable : forall s key_first m, deserialize s key_first = Ok m -> exists ls ts, lines_of s ls /\ reads [] ls ts.
Proof.
  intros s kf m H. unfold deserialize in H. rewrite useful_keep in H. apply read_spec in H. destruct H as (ts & H & _). exists (split_lines s), ts. split; [apply split_spec|auto].
Qed.
Print Assumptions C151_readable.
(** Loading decodes the values that are in quotes. *)
Theorem C151_load : forall json s ls ts, lines_of s ls -> reads [] ls ts ->
  (forall k l w, last_value ts k l w -> exists v, decoded json w v) ->
  exists m, load_translations json s = Ok m /\ forall k l v, lookup2 l k m = Some v <-> exists w, last_value ts k l w /\ decoded json w v.
Proof.
  intros json s ls ts Hs Hr Hv. unfold load_translations.
  assert (D : deserialize s false = Ok (fold_left (add false) ts [])) by (unfold deserialize; rewrite useful_keep, (split_fun _ _ Hs); apply read_fun; auto).
  rewrite D. set (m := fold_left (add false) ts []). assert (L : forall k l v, lookup2 l k m = Some v <-> last_value ts k l v).
  { intros k l v. unfold m. rewrite (fold_lookup false ts [] k l), fold_last. split; [|auto]. intros [H|(H & _)]; [auto|discriminate]. }
  assert (N : nodup2 m) by (apply fold_nodup; split; [constructor|intros k d []]).
  destruct (load_maps_total json m) as (m' & E).
  { intros l d k w H1 H2. apply load_one_total. apply (Hv k l w). apply L. eapply nodup2_lookup; eauto. }
  rewrite E. exists m'. split; [auto|]. intros k l v. rewrite (load_maps_lookup json m m' E). split.
  - destruct (lookup2 l k m) as [w|] eqn:F; [|discriminate]. intros H. exists w. split; [apply L; auto|apply load_one_ok; auto].
  - intros (w & H1 & H2). apply L in H1. rewrite H1. apply load_one_ok. auto.
Qed.
Print Assumptions C151_load.
(** A lone bracket, or a section that does not end in a byte, is a panic. *)
Theorem C151_panic_refuted : exists s, forall key_first, deserialize s key_first = Panic.
Proof. exists (lit "["). intros kf. destruct kf; reflexivity. Qed.
Print Assumptions C151_panic_refuted.
Definition C151_file : text := unlines [lit "# words"; lit "[a.b]"; lit " en = A = 1 "; lit "zh = B"; lit ""; lit "[c]"; lit "en = C"; lit "en = D"].
Example C151_nonvacuous :
  exists m m', deserialize C151_file true = Ok m /\ deserialize C151_file false = Ok m' /\
    lookup2 (lit "a.b") (lit "en") m = Some (lit "A = 1") /\ lookup2 (lit "zh") (lit "a.b") m' = Some (lit "B") /\ lookup2 (lit "c") (lit "en") m = Some (lit "D") /\
    (exists ls ts, lines_of C151_file ls /\ reads [] ls ts).
Proof. eexists. eexists. split; [reflexivity|]. split; [reflexivity|]. repeat (split; [reflexivity|]). eapply C151_readable with (key_first := true). reflexivity. Qed.

(** * C152: the update of the file *)

(** What is written is what was read, if it can be written. *)
Theorem C152_round_trip : forall m, ok_map m -> (forall k d, In (k, d) m -> lookup (lit "en") d <> None) ->
  exists t, serialize m = Some t /\ forall key_first, exists m', deserialize t key_first = Ok m' /\
    forall k l, lookup2 (if key_first then k else l) (if key_first then l else k) m' = lookup2 k l m.
Proof.
  intros m Hm He. destruct (serialize_ok m Hm He) as (t & ls & ts & E & Hl & Hr & H). exists t. split; [auto|]. intros kf. destruct (C151_read t ls ts Hl Hr kf) as (m' & D & Q). exists m'. split; [auto|]. intros k l.
  destruct (lookup2 k l m) as [v|] eqn:F; [apply Q, H; auto|]. destruct (lookup2 (if kf then k else l) (if kf then l else k) m') as [v|] eqn:G; [|auto]. apply Q, H in G. congruence.
Qed.
Print Assumptions C152_round_trip.
(** The keys of the program are kept, their English messages are those of the
    program, and the other languages are as before. *)
Theorem C152_update : forall kvs m k l v,
  lookup2 k l (update_translations kvs m) = Some v <->
  (l = lit "en" /\ last_kv kvs k v) \/ (l <> lit "en" /\ (exists w, In (k, w) kvs) /\ lookup2 k l m = Some v).
Proof. exact update_lookup. Qed.
Print Assumptions C152_update.
(** The same of the file, for messages of one line. *)
Theorem C152_disk_partial : forall kvs file ts,
  (forall k v, In (k, v) kvs -> ok_key k /\ ok_value v) ->
  match file with Some s => exists ls, lines_of s ls /\ reads [] ls ts | None => ts = [] end ->
  exists out ls' ts', update_disk kvs file = Ok out /\ lines_of out ls' /\ reads [] ls' ts' /\
    forall k l v, last_value ts' k l v <->
      (l = lit "en" /\ last_kv kvs k v) \/ (l <> lit "en" /\ (exists w, In (k, w) kvs) /\ last_value ts k l v).
Proof.
  intros kvs file ts Hk Hf.
  assert (Hm : exists m, (match file with Some s => deserialize s true | None => Ok [] end) = Ok m /\ ok_map m /\ forall k l v, lookup2 k l m = Some v <-> last_value ts k l v).
  { destruct file as [s|].
    - destruct Hf as (ls & Hl & Hr). exists (fold_left (add true) ts []). split; [unfold deserialize; rewrite useful_keep, (split_fun _ _ Hl); apply read_fun; auto|]. split.
      + apply fold_ok; [apply nil_ok|]. destruct Hl as (_ & _ & Hl). eapply reads_ok; eauto. intros [].
      + intros k l v. rewrite (fold_lookup true ts [] k l), fold_last. split; [|auto]. intros [H|(H & _)]; [auto|discriminate].
    - subst. exists []. split; [auto|]. split; [apply nil_ok|]. intros k l v. split; [discriminate|]. intros (a & b & H & _). destruct a; discriminate. }
  destruct Hm as (m & E & Hok & L). unfold update_disk. rewrite E.
  assert (Hk' : forall k v, In (k, v) (sort kvs) -> ok_key k /\ ok_value v) by (intros k v Hi; apply Hk; apply (Permutation_in _ (sort_perm kvs)); auto).
  destruct (serialize_ok (update_translations (sort kvs) m) (update_ok _ _ Hok Hk') (fun k d => update_en _ _ k d Hok Hk')) as (t & ls' & ts' & S & Hl' & Hr' & H).
  rewrite S. exists t, ls', ts'. split; [auto|]. split; [auto|]. split; [auto|]. intros k l v. rewrite H, update_lookup, last_kv_sort, L.
  assert (Hw : (exists w, In (k, w) (sort kvs)) <-> exists w, In (k, w) kvs) by (split; intros (w & Hi); exists w; revert Hi; apply Permutation_in; [|apply Permutation_sym]; apply sort_perm).
  rewrite Hw. tauto.
Qed.
Print Assumptions C152_disk_partial.
(** A message with a line break makes a file that cannot be read. *)
Theorem C152_line_refuted : exists kvs out, update_disk kvs None = Ok out /\ deserialize out true = Err.
Proof. exists [(lit "k", in_quotes (lit "a" ++ [10%N] ++ lit "b"))]. eexists. split; reflexivity. Qed.
Print Assumptions C152_line_refuted.
Example C152_nonvacuous :
  exists out m, update_disk [(lit "c", lit """C2"""); (lit "n", lit """N""")] (Some C151_file) = Ok out /\ deserialize out true = Ok m /\
    lookup2 (lit "a.b") (lit "zh") m = None /\ lookup2 (lit "c") (lit "en") m = Some (lit """C2""") /\ lookup2 (lit "n") (lit "en") m = Some (lit """N""").
Proof. eexists. eexists. split; [reflexivity|]. split; [reflexivity|]. repeat split; reflexivity. Qed.

(** * C153: the messages of the program *)

(** The messages of a Rust file are the calls of the two macros with two literals. *)
Theorem C153_rust : forall content k x, In (k, x) (calls true content) <-> exists v, x = in_quotes v /\ is_call content k v.
Proof. exact calls_rs. Qed.
Print Assumptions C153_rust.
(** Those of a TypeScript file are the calls of the function with a literal. *)
Theorem C153_typescript : forall content x y, In (x, y) (calls false content) <-> exists k, x = in_quotes k /\ y = in_quotes k /\ is_call_ts content k.
Proof. exact calls_ts. Qed.
Print Assumptions C153_typescript.
(** A literal ends at its first quote that is not escaped. *)
Theorem C153_literal : forall s k r, parse_str s = Some (k, r) <-> exists w, blank w /\ literal k /\ s = w ++ in_quotes k ++ r.
Proof. exact parse_str_iff. Qed.
Print Assumptions C153_literal.
Example C153_nonvacuous :
  calls true (lit "f(tinymist_l10n::t!( ""a.b"" , ""say \""hi\"""" )); tinymist_l10n::bail!(""c"", ""d {x}"", x = 1)") =
    [(lit "a.b", in_quotes (lit "say \""hi\""")); (lit "c", in_quotes (lit "d {x}"))] /\
  calls false (lit "l10nMsg(""Open"")") = [(in_quotes (lit "Open"), in_quotes (lit "Open"))].
Proof. split; reflexivity. Qed.
