(** Theorems about modes and what is completed in them (C189). *)
From Coq Require Import String Ascii List Arith Bool Lia.
From Verif Require Import ModeModel ModeSpec ModeProof.
Import ListNotations.

(** C189: the mode is that of the first node from the leaf up that settles it, and markup if there is none. *)
Theorem C189_modes : forall chain m, interpret_mode_at chain = m <-> settled chain m.
Proof. intros chain m. split; [intros <-; apply interpret_settled|apply settled_fun]. Qed.
Print Assumptions C189_modes.
(** C189, in part: so it is inside of a document.  (Missing: its ends, see [C189_ends_refuted].) *)
Theorem C189_mode_at_partial : forall len pos chain m, 0 < pos < len -> (mode_at len pos chain = m <-> settled chain m).
Proof.
  intros len pos chain m (A & B). unfold mode_at. rewrite (proj2 (Nat.eqb_neq pos 0)) by lia. rewrite (proj2 (Nat.leb_gt len pos)) by lia. apply C189_modes.
Qed.
Print Assumptions C189_mode_at_partial.
(** C189 fails: at the end of a document that ends in a comment, or in code, the mode is markup. *)
Theorem C189_ends_refuted : exists len k, own k Comment /\ (exists k', own k' Code /\ mode_at len len [mkNode k' false; mkNode KMarkup false] = Markup) /\ 0 < len /\ mode_at len len [mkNode k false; mkNode KMarkup false] = Markup.
Proof. exists 10, KLineComment. split; [cbn; auto|]. split; [exists KLet; split; [apply own_mode; reflexivity|reflexivity]|]. split; [lia|reflexivity]. Qed.
Print Assumptions C189_ends_refuted.
(** C189 fails: right after the backticks that open raw text after a hash, the mode is that of code, where nothing is offered, and not that of the raw text, where languages are. *)
Theorem C189_raw_refuted : exists p text, let chain h := [mkNode KRawDelim h; mkNode KRaw h; mkNode KMarkup false] in
  p_leaf p = KRawDelim /\ interpret_mode_at (chain false) = RawText /\ complete_markup (fun _ => true) (fun _ => true) false false p (Some (1, text)) = [Languages 4]
  /\ interpret_mode_at (chain true) = Code /\ p_prev p = Some KHash /\ complete_code p = None.
Proof. exists (mkPlace KRawDelim (Some KRaw) 1 4 (Some KHash) (Some KMarkup)), [96; 96; 96]. repeat split. Qed.
Print Assumptions C189_raw_refuted.
(** C189: in code names are offered after a hash, for a name, after a context, in blanks and comments, and after what opens; a name is replaced from its start. *)
Theorem C189_code : forall p o, complete_code p = Some o <->
  (p_leaf p = KHash /\ o = Names (p_cursor p) true)
  \/ (p_leaf p = KIdent /\ ((p_prev p = Some KHash /\ o = Names (p_start p) true) \/ (p_prev p <> Some KHash /\ o = Names (p_start p) false)))
  \/ (p_leaf p <> KHash /\ p_leaf p <> KIdent /\ o = Names (p_cursor p) false
      /\ (p_prev p = Some KContext \/ In (p_leaf p) [KSpace; KParbreak; KLineComment; KBlockComment; KShebang; KLeftParen; KLeftBrace] \/ (p_leaf p = KColon /\ p_parent p = Some KShowRule))).
Proof.
  intros [leaf parent start cursor prev pp] o. unfold complete_code. cbn [p_leaf p_parent p_start p_cursor p_prev].
  assert (KI : forall k x, In k [KContext; KShowRule; KHash] -> (kind_is k x = true <-> x = Some k)).
  { intros k x I. split; [|intros ->; destruct I as [<-|[<-|[<-|[]]]]; reflexivity]. destruct x as [x|]; [|discriminate]. destruct I as [<-|[<-|[<-|[]]]]; destruct x; cbn; intros; try discriminate; reflexivity. }
  pose proof (KI KContext prev (or_introl eq_refl)) as C. pose proof (KI KShowRule parent (or_intror (or_introl eq_refl))) as S. pose proof (KI KHash prev (or_intror (or_intror (or_introl eq_refl)))) as H. clear KI.
  destruct (kind_eq leaf KHash) as [->|NH].
  { split; [intros E; injection E as <-; now left|]. intros [(_ & ->)|[(E & _)|(N & _)]]; [reflexivity|discriminate|now contradiction N]. }
  destruct (kind_eq leaf KIdent) as [->|NI].
  { split; [intros E; injection E as <-; right; left; split; [reflexivity|]; destruct (kind_is KHash prev); [left; split; [now apply H|reflexivity]|right; split; [intros X; apply H in X; discriminate|reflexivity]]|].
    intros [(E & _)|[(_ & [(P & ->)|(P & ->)])|(_ & N & _)]]; [discriminate| | |now contradiction N].
    - rewrite (proj2 H P). reflexivity.
    - destruct (kind_is KHash prev); [exfalso; apply P; now apply H|reflexivity]. }
  set (w := is_trivia leaf || match leaf with KLeftParen | KLeftBrace => true | KColon => kind_is KShowRule parent | _ => false end).
  assert (W : w = true <-> In leaf [KSpace; KParbreak; KLineComment; KBlockComment; KShebang; KLeftParen; KLeftBrace] \/ (leaf = KColon /\ parent = Some KShowRule)).
  { unfold w. rewrite <- S. split; [destruct leaf; cbn; intros X; try discriminate; auto 10|]. intros [I|(-> & X)]; [|exact X]. repeat (destruct I as [<-|I]; [reflexivity|]). destruct I. }
  assert (M : forall X : option offer, match leaf with KHash => Some (Names cursor true) | KIdent => Some (Names start (kind_is KHash prev)) | _ => X end = X) by (clear - NH NI; intros X; destruct leaf; try reflexivity; contradiction).
  rewrite M.
  clear M. clearbody w. split.
  - intros E. right. right. split; [exact NH|]. split; [exact NI|]. destruct (kind_is KContext prev); [injection E as <-; split; [reflexivity|left; now apply C]|]. destruct w; [injection E as <-; split; [reflexivity|right; now apply W]|discriminate].
  - intros [(E & _)|[(E & _)|(_ & _ & -> & [X|X])]]; [contradiction|contradiction| |].
    + now rewrite (proj2 C X).
    + rewrite (proj2 W X). now destruct (kind_is KContext prev).
Qed.
Print Assumptions C189_code.
(** C189: in math names and snippets are offered for names and text, from their starts, or anywhere if asked for; never after signs. *)
Theorem C189_math : forall punc explicit p, let word := In (p_leaf p) [KText; KMathIdent; KMathText] in
  (punc = true -> complete_math punc explicit p = [])
  /\ (punc = false -> word -> complete_math punc explicit p = [MathNames (p_start p); Snippets (p_start p) Math])
  /\ (punc = false -> ~ word -> complete_math punc explicit p = if explicit then [MathNames (p_cursor p); Snippets (p_cursor p) Math] else []).
Proof.
  intros punc explicit p. cbv zeta. unfold complete_math. split; [intros ->; reflexivity|]. split; intros ->; cbn [negb andb]; cbn [In].
  - intros [<-|[<-|[<-|[]]]]; reflexivity.
  - intros N. destruct (p_leaf p); try reflexivity; exfalso; apply N; auto.
Qed.
Print Assumptions C189_math.
(** C189: in raw text languages are offered, from the start of the tag, exactly if the cursor is where the tag after three or more backticks ends; nothing else is offered there but names after a binding or context. *)
Theorem C189_markup : forall id_start id_continue punc explicit p offset text,
  let half := ((p_prev p = Some KEq \/ p_prev p = Some KArrow) /\ (p_prev_parent p = Some KLetBinding \/ p_prev_parent p = Some KClosure)) \/ p_prev p = Some KContext in
  let out := complete_markup id_start id_continue punc explicit p in
  (half -> forall raw, out raw = [Names (p_cursor p) false])
  /\ (~ half -> forall a b, tagged id_start id_continue text a b -> out (Some (offset, text)) = if offset + b =? p_cursor p then [Languages (offset + a)] else [])
  /\ (~ half -> (forall a b, ~ tagged id_start id_continue text a b) -> out (Some (offset, text)) = if negb punc && explicit then [Snippets (p_cursor p) Markup] else [])
  /\ (~ half -> out None = if negb punc && explicit then [Snippets (p_cursor p) Markup] else []).
Proof.
  intros id_start id_continue punc explicit p offset text. cbv zeta. unfold complete_markup.
  assert (KI : forall k x, In k [KContext; KEq; KArrow; KLetBinding; KClosure] -> (kind_is k x = true <-> x = Some k)).
  { intros k x I. split; [|intros ->; repeat (destruct I as [<-|I]; [reflexivity|]); destruct I]. destruct x as [x|]; [|discriminate]. destruct I as [<-|[<-|[<-|[<-|[<-|[]]]]]]; destruct x; cbn; intros; try discriminate; reflexivity. }
  set (a1 := (kind_is KEq (p_prev p) || kind_is KArrow (p_prev p)) && (kind_is KLetBinding (p_prev_parent p) || kind_is KClosure (p_prev_parent p))).
  assert (A1 : a1 = true <-> (p_prev p = Some KEq \/ p_prev p = Some KArrow) /\ (p_prev_parent p = Some KLetBinding \/ p_prev_parent p = Some KClosure)).
  { unfold a1. rewrite andb_true_iff, !orb_true_iff, !KI by (cbn; auto 10). reflexivity. }
  pose proof (KI KContext (p_prev p) (or_introl eq_refl)) as C. clearbody a1. clear KI.
  split; [|].
  - intros [H|H] raw; [now rewrite (proj2 A1 H)|]. rewrite (proj2 C H). now destruct a1.
  - assert (R : ~ (((p_prev p = Some KEq \/ p_prev p = Some KArrow) /\ (p_prev_parent p = Some KLetBinding \/ p_prev_parent p = Some KClosure)) \/ p_prev p = Some KContext) -> a1 = false /\ kind_is KContext (p_prev p) = false).
    { intros N. split; [destruct a1; [exfalso; apply N; left; now apply A1|reflexivity]|destruct (kind_is KContext (p_prev p)); [exfalso; apply N; right; now apply C|reflexivity]]. }
    split; [|split]; intros N; destruct (R N) as (-> & ->).
    + intros a b T. assert (E : raw_tag id_start id_continue offset text = Some (offset + a, offset + b)) by (apply raw_tag_spec; exists a, b; auto). now rewrite E.
    + intros T. destruct (raw_tag id_start id_continue offset text) as [[a b]|] eqn:E; [|reflexivity]. exfalso. apply raw_tag_spec in E. destruct E as (a' & b' & _ & _ & G). now apply (T a' b').
    + reflexivity.
Qed.
Print Assumptions C189_markup.
(** C189: the snippet that documents a function has all its stops, in order and once, and a line for each parameter and the result. *)
Theorem C189_snippet : forall names space ps, let s := doc_snippet space ps in
  stops s = seq 0 (2 * length ps + 2)
  /\ plain names s = ((if space then "" else " ") ++ line "///" ++ fold_right (fun p r => line "/// - " ++ called names p ++ " (): " ++ r) (line "/// -> ") ps)%string.
Proof.
  intros names space ps. cbv zeta. unfold doc_snippet. pose proof (lines_spec names ps 0) as L. destruct (lines 0 ps) as [l i]. destruct L as (E & A & B). split.
  - rewrite !stops_app, A, E. replace (stops (if space then [] else [Text " "])) with (@nil nat) by (now destruct space). cbn [stops flat_map app]. replace (2 * length ps + 2) with (S (2 * length ps + 1)) by lia. cbn [seq]. f_equal. rewrite seq_app. f_equal. cbn. f_equal. lia.
  - rewrite !plain_app, B. replace (plain names (if space then [] else [Text " "])) with (if space then ""%string else " "%string) by (now destruct space). f_equal. cbn [plain fold_right]. clear. change (nl ++ "///" ++ "")%string with (line "///"). cbn [append].
    assert (SA : forall x y z : string, ((x ++ y) ++ z)%string = (x ++ y ++ z)%string) by (induction x as [|c x IH]; intros y z; cbn; [reflexivity|now rewrite IH]).
    assert (F : forall u v : string, (fold_right (fun p s => (line "/// - " ++ called names p ++ " (): " ++ s)%string) u ps ++ v = fold_right (fun p s => (line "/// - " ++ called names p ++ " (): " ++ s)%string) (u ++ v)%string ps)%string) by (intros u v; induction ps as [|p r IH]; [reflexivity|cbn [fold_right]; rewrite !SA, IH; reflexivity]).
    rewrite F. reflexivity.
Qed.
Print Assumptions C189_snippet.
(** C189: as parameters exactly the captured names are offered that the function does not bind itself, in order. *)
Theorem C189_params : forall name ps captures,
  let out := complete_params name ps captures in
  (forall c, In c out <-> In c captures /\ name <> Some c /\ forall p, In p ps -> ~ binds p c)
  /\ (NoDup captures -> NoDup out) /\ (forall a b, complete_params name ps (a ++ b) = complete_params name ps a ++ complete_params name ps b).
Proof.
  intros name ps captures. cbv zeta. unfold complete_params. split; [|split; [apply NoDup_filter|apply filter_app]]. intros c. rewrite filter_In, negb_true_iff.
  assert (B : In c (bound name ps) <-> name = Some c \/ exists p, In p ps /\ binds p c).
  { unfold bound. rewrite in_app_iff, in_flat_map. assert (X : In c (match name with Some n => [n] | None => [] end) <-> name = Some c) by (destruct name as [n|]; cbn; [split; [intros [->|[]]; reflexivity|intros E; injection E as ->; auto]|split; [intros []|discriminate]]). rewrite X.
    assert (Y : forall p, In c (match p with PName n | PNamed n => [n] | PPattern ns => ns | PSink (Some n) => [n] | PSink None => [] end) <-> binds p c).
    { unfold binds. intros [n|ns|n|[n|]]; cbn [In].
      - split; [intros [->|[]]; auto|intros [E|[E|[(ns & E & _)|E]]]; try discriminate; injection E as ->; auto].
      - split; [intros I; right; right; left; exists ns; auto|intros [E|[E|[(ns' & E & I)|E]]]; try discriminate; injection E as ->; auto].
      - split; [intros [->|[]]; auto|intros [E|[E|[(ns & E & _)|E]]]; try discriminate; injection E as ->; auto].
      - split; [intros [->|[]]; auto|intros [E|[E|[(ns & E & _)|E]]]; try discriminate; injection E as ->; auto].
      - split; [intros []|intros [E|[E|[(ns & E & _)|E]]]; discriminate]. }
    split; (intros [H|(p & I & H)]; [now left|right; exists p; split; [exact I|now apply Y]]). }
  assert (E : existsb (Nat.eqb c) (bound name ps) = false <-> ~ In c (bound name ps)).
  { split; [intros F I; assert (existsb (Nat.eqb c) (bound name ps) = true) by (apply existsb_exists; exists c; split; [exact I|apply Nat.eqb_refl]); congruence|]. intros N. destruct (existsb (Nat.eqb c) (bound name ps)) eqn:F; [|reflexivity]. exfalso. apply existsb_exists in F. destruct F as (x & I & Q). apply Nat.eqb_eq in Q. now subst. }
  rewrite E, B. split.
  - intros (I & N). split; [exact I|]. split; [intros X; apply N; now left|]. intros p J K. apply N. right. now exists p.
  - intros (I & N & P). split; [exact I|]. intros [X|(p & J & K)]; [contradiction|now apply (P p)].
Qed.
Print Assumptions C189_params.
(** C189: in math only names and their fields have fields, and only text without signs and blanks is put into functions. *)
Theorem C189_targets : forall t,
  (math_field t = true <-> path t)
  /\ (math_postfix t = true <-> (forall c, t = TChar c -> ~ sign c) /\ forall l, t = TText l -> l <> [] /\ forall c, In c l -> ~ sign c).
Proof.
  intros t. split.
  - split; [induction t; cbn; try discriminate; intros H; constructor; auto|induction 1; auto].
  - assert (B : forall c, negb (bad c) = true <-> ~ sign c) by (intros c; rewrite negb_true_iff, <- bad_sign; destruct (bad c); split; congruence).
    destruct t as [u| |c| |l|]; cbn [math_postfix]; try (split; [intros _; split; intros; discriminate|reflexivity]).
    + rewrite B. split; [intros N; split; [intros x E; now injection E as <-|intros l E; discriminate]|intros (N & _); now apply N].
    + rewrite andb_true_iff, forallb_forall. split.
      * intros (A & H). split; [intros x E; discriminate|]. intros l' E. injection E as <-. split; [intros ->; discriminate|]. intros c I. apply B. now apply H.
      * intros (_ & H). destruct (H l eq_refl) as (A & C). split; [destruct l; [contradiction|reflexivity]|]. intros c I. apply B. now apply C.
Qed.
Print Assumptions C189_targets.

(** Text in a block of content after a call; a tag; a function with a sink. *)
Example C189_nonvacuous :
  interpret_mode_at [mkNode KText false; mkNode KMarkup false; mkNode KContentBlock false; mkNode KArgs false; mkNode KFuncCall true] = Markup
  /\ interpret_mode_at [mkNode KDot false; mkNode KFieldAccess true; mkNode KMarkup false] = Code
  /\ mode_at 9 4 [mkNode KSpace true; mkNode KEquation false] = Math
  /\ complete_markup (fun c => 97 <=? c) (fun c => 97 <=? c) false true (mkPlace KText (Some KRaw) 3 7 None None) (Some (2, [96; 96; 96; 99; 100; 32])) = [Languages 5]
  /\ stops (doc_snippet true [PName 1; PSink None]) = [0; 1; 2; 3; 4; 5]
  /\ complete_params (Some 4) [PPattern [1; 2]; PNamed 3] [5; 1; 4; 6; 3] = [5; 6]
  /\ math_postfix (TText [97; 46]) = false.
Proof. repeat split. Qed.
