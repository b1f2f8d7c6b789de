From Coq Require Import String List Arith Bool Lia.
From Verif Require Import ColModel ColSpec ColProof.
Import ListNotations.

(** C174: the colors of a document are its calls that stand for colors, wherever they are, each with its range. *)
Theorem C174_exact : forall hex eval root, regular root ->
  exists l, document_color hex eval (Some root) = Some l /\
    forall i, In i l <-> exists o n c, below 0 root o n /\ stands hex eval n c /\ i = mkInfo o (o + len n) c.
Proof. intros hex eval root R. eexists. split; [reflexivity|]. intros i. now apply work_spec. Qed.
Print Assumptions C174_exact.
(** They are in the order of the text, an outer one before those within, and none twice. *)
Theorem C174_order : forall hex eval root l, regular root -> document_color hex eval (Some root) = Some l -> ForallOrdPairs precedes l.
Proof. intros hex eval root l R [= <-]. now apply ordered. Qed.
Print Assumptions C174_order.
Theorem C174_once : forall hex eval root l, regular root -> document_color hex eval (Some root) = Some l -> NoDup (map (fun i => (i_start i, i_end i)) l).
Proof.
  intros hex eval root l R E. pose proof (C174_order _ _ _ _ R E) as O. injection E as E.
  assert (P : forall i, In i l -> i_start i < i_end i) by (intros i I; rewrite <- E in I; now apply range in I).
  clear E. induction O as [|x l F O IH]; [constructor|]. cbn. constructor; [|apply IH; intros i I; apply P; now right].
  intros I. apply in_map_iff in I. destruct I as (y & Y & I). rewrite Forall_forall in F. specialize (F _ I). injection Y as Y1 Y2.
  specialize (P x (or_introl eq_refl)). unfold precedes in F. lia.
Qed.
Print Assumptions C174_once.
Theorem C174_unread : forall hex eval source, document_color hex eval source = None <-> source = None.
Proof. intros hex eval [n|]; cbn; split; congruence. Qed.
Print Assumptions C174_unread.

(** A document: [rgb("a")], a call [luma(color.hsl(x))] with one within, and a comment. *)
Definition white : rgba := mkColor 1 1 1 1.
Definition hex0 (t : text) : option rgba := if same t (lit "a") then Some white else None.
Definition eval0 (n : node) : option rgba := Some (mkColor 0 0 0 1).
Definition call (callee : node) (args : list node) : node := Inner KFuncCall [callee; Inner KArgs (Leaf KOther (lit "(") :: args ++ [Leaf KOther (lit ")")])].
Definition id (s : string) : node := Leaf KIdent (lit s).
Definition doc0 : node := Inner KOther
  [call (id "rgb") [Leaf KStr (lit "a")]; Leaf KTrivia (lit "//");
   call (id "luma") [call (Inner KFieldAccess [id "color"; Leaf KOther (lit "."); id "hsl"]) [id "x"]]; call (id "rgb") [id "y"]].
Example regular0 : regular doc0.
Proof. repeat (constructor; try discriminate). Qed.
Example C174_nonvacuous : document_color hex0 eval0 (Some doc0) = Some [mkInfo 0 6 white; mkInfo 8 26 (mkColor 0 0 0 1); mkInfo 13 25 (mkColor 0 0 0 1)].
Proof. reflexivity. Qed.

(** What is defined in the document does not matter: after [let rgb = ...] a call of that function is still listed. *)
Theorem C174_shadowed : forall hex eval before after o n c, regular (Inner KOther (before ++ n :: after)) -> stands hex eval n c -> o = list_sum (map len before) ->
  exists l, document_color hex eval (Some (Inner KOther (before ++ n :: after))) = Some l /\ In (mkInfo o (o + len n) c) l.
Proof.
  intros hex eval before after o n c R S ->. destruct (C174_exact hex eval _ R) as (l & E & H). exists l. split; [assumption|]. apply H.
  exists (list_sum (map len before)), n, c. split; [|now split]. constructor; try discriminate. constructor.
Qed.
Print Assumptions C174_shadowed.
Example C174_shadowed_case : stands hex0 eval0 (call (id "rgb") [Leaf KStr (lit "a")]) white.
Proof.
  eexists. exists (lit "rgb"). eexists. split; [reflexivity|]. split; [left; exists [], [Inner KArgs [Leaf KOther (lit "("); Leaf KStr (lit "a"); Leaf KOther (lit ")")]]; repeat split; constructor|].
  split; [left; eexists [_], _, []; split; [reflexivity|]; split; [intros b []|]|left; split; [reflexivity|]; exists (lit "a"); now split].
  apply K_other; [intros [H|[H|H]]; [inversion H|discriminate..]|]. apply K_arg; [left; constructor|]. apply K_other; [intros [H|[H|H]]; [inversion H|discriminate..]|]. constructor.
Qed.
(** Other functions of these names are not: a call of a field of anything but [color], and of a name that is not among the eight. *)
Theorem C174_others : forall hex eval cs name c, Forall regular cs -> called cs name ->
  ~ In name [lit "rgb"; lit "luma"; lit "oklab"; lit "oklch"; lit "linear-rgb"; lit "cmyk"; lit "hsl"; lit "hsv"] -> ~ stands hex eval (Inner KFuncCall cs) c.
Proof.
  intros hex eval cs name c F C N (cs' & name' & l & E & C' & _ & D). injection E as <-.
  assert (U : forall e e', leads cs e -> leads cs e' -> e = e') by (intros e e' H H'; apply find_leads in H, H'; trivial; congruence).
  assert (Q : name = name').
  { destruct C as [C|(fs & C & T & P)], C' as [C'|(fs' & C' & T' & P')]; pose proof (U _ _ C C') as E; try discriminate; injection E as E; [assumption|]. subst fs'.
    assert (R : regular (Inner KFieldAccess fs)) by (destruct C as (pre & post & -> & _); apply Forall_app in F; destruct F as [_ F]; now inversion F).
    assert (Ff : Forall regular fs) by (now inversion R).
    apply last_ident_spec in P, P'; trivial. destruct P as (k & P), P' as (k' & P'). congruence. }
  subst name'. apply N. destruct D as [[-> _]|[[-> _]|[I _]]]; [now left|now left|now right].
Qed.
Print Assumptions C174_others.

(** The presentations: a string of digits, and then the color in the notations that there are, of which RGB is given twice. *)
Theorem C174_presentations : forall hex repr c,
  presentations hex repr c = ([34] ++ hex c ++ [34]) :: map (fun s => repr s c) [Rgb; Luma; Oklab; Oklch; Rgb; LinearRgb; Cmyk; Hsl; Hsv].
Proof. reflexivity. Qed.
Print Assumptions C174_presentations.
(** The first of them is a string: in place of a call that stands for a color it leaves none there. *)
Theorem C174_first : forall hex eval to_hex repr c before after,
  exists s, hd [] (presentations to_hex repr c) = s /\ hd_error s = Some 34 /\
    work hex eval 0 (Inner KOther (before ++ Leaf KStr s :: after)) =
    work hex eval 0 (Inner KOther before) ++ work hex eval (list_sum (map len before) + length s) (Inner KOther after).
Proof.
  intros hex eval to_hex repr c before after. eexists. split; [reflexivity|]. split; [reflexivity|]. rewrite !work_inner. cbn [skipped nkind app].
  set (s := 34 :: to_hex c ++ [34]).
  enough (G : forall o, go hex eval o (before ++ Leaf KStr s :: after) = go hex eval o before ++ go hex eval (o + list_sum (map len before) + length s) after) by (rewrite G; cbn [hd presentations]; reflexivity).
  induction before as [|x before IH]; intros o; cbn [app map list_sum fold_right go].
  - cbn. now rewrite Nat.add_0_r.
  - cbn [app]. rewrite <- app_assoc. f_equal. etransitivity; [apply IH|]. f_equal. f_equal. unfold list_sum. cbn. lia.
Qed.
Print Assumptions C174_first.
