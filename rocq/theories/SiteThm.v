(** Theorems about definitions and what can be renamed (C188). *)
From Coq Require Import List Arith Bool Lia.
From Verif Require Import SiteModel SiteSpec SiteProof.
Import ListNotations.

Lemma stands_term file_of t d : stands file_of t d <-> of_term file_of t = Found d (Some t).
Proof.
  split; [now intros []|]. unfold of_term. destruct t as [[f [n|] s|[n|]|v]|t]; cbn; intros E; try discriminate; injection E as <-; constructor.
Qed.
Lemma term_cases file_of t : (exists d, stands file_of t d /\ of_term file_of t = Found d (Some t)) \/ (t = TValue (VModule None) /\ of_term file_of t = Panic).
Proof. unfold of_term. destruct t as [[f [n|] s|[n|]|v]|t]; cbn; try (left; eexists; split; [constructor|reflexivity]). right. auto. Qed.
(** C188: a name leads through imports to the declaration that it stands for or to a value; and to nothing exactly if there is nothing; modules without a name end in a panic. *)
Theorem C188_definitions : forall file_of resolves n s, let r := of_span file_of resolves n s in r <> Deep ->
  (forall d t, declared resolves s d t -> r = Found d t)
  /\ (forall t d, valued resolves s t -> stands file_of t d -> r = Found d (Some t))
  /\ (forall d t, r = Found d t -> declared resolves s d t \/ exists u, t = Some u /\ valued resolves s u /\ stands file_of u d)
  /\ (r = Nothing <-> dead resolves s)
  /\ (r = Panic <-> valued resolves s (TValue (VModule None))).
Proof.
  intros file_of resolves n s. cbv zeta. intros N. pose proof (span_spec file_of resolves n s) as S. split; [|split; [|split; [|split]]].
  - intros d t. now apply declared_span.
  - intros t d V T. rewrite (valued_span _ _ _ _ _ N V). now apply stands_term.
  - intros d t E. rewrite E in S. destruct S as [(d' & t' & D & F)|(u & V & F)]; [left; injection F as -> ->; exact D|right]. destruct (term_cases file_of u) as [(d' & T & G)|(_ & G)]; rewrite G in F; [|discriminate]. injection F as -> ->. now exists u.
  - split; [apply span_nothing|apply span_dead].
  - split; [|intros V; rewrite (valued_span _ _ _ _ _ N V); reflexivity]. intros E. rewrite E in S. destruct S as [(d' & t' & D & F)|(u & V & F)]; [discriminate|]. destruct (term_cases file_of u) as [(d' & T & G)|(G & _)]; [rewrite G in F; discriminate|now subst].
Qed.
Print Assumptions C188_definitions.
(** C188: if imports are in some order then the search ends after as many as there can be, and more make no difference. *)
Theorem C188_ends : forall file_of resolves rank, ordered resolves rank -> forall s n, rank s <= n ->
  of_span file_of resolves n s <> Deep /\ of_span file_of resolves n s = of_span file_of resolves (rank s) s.
Proof.
  intros file_of resolves rank O s n L. pose proof (span_ends file_of resolves rank O n s L) as N. split; [exact N|]. pose proof (span_ends file_of resolves rank O (rank s) s (le_n _)) as N'.
  pose proof (C188_definitions file_of resolves n s N) as (A & B & C & D & E). pose proof (span_spec file_of resolves (rank s) s) as S. destruct (of_span file_of resolves (rank s) s) as [d t| | |] eqn:F; try contradiction.
  - destruct S as [(d' & t' & G & H)|(u & V & H)]; [rewrite H; now apply A|]. rewrite H. now apply valued_span.
  - now apply D.
  - destruct S as [(d' & t' & G & H)|(u & V & H)]; [rewrite H; now apply A|]. rewrite H. now apply valued_span.
Qed.
Print Assumptions C188_ends.
(** C188: without an order it need not end: an import that leads to itself. *)
Theorem C188_cycles : exists resolves s, forall file_of n, of_span file_of resolves n s = Deep.
Proof.
  exists (fun _ => Some (Some (EDecl (mkDecl KImport 1 1 (Some 0))), None)), 1. intros file_of. induction n as [|n IH]; [reflexivity|]. cbn [of_span]. cbn [Nat.eqb of_expr d_kind d_span]. now rewrite IH.
Qed.
Print Assumptions C188_cycles.
(** C188 fails: a module without a name, such as that of a plugin, brings down the search. *)
Theorem C188_modules_refuted : exists resolves s, forall file_of n, of_span file_of resolves n s = Panic.
Proof. exists (fun _ => Some (None, Some (TValue (VModule None)))), 1. intros file_of n. now destruct n. Qed.
Print Assumptions C188_modules_refuted.
(** C188: a field is defined by the first of its sources: the variable, what its span leads to, or a value of its name. *)
Theorem C188_fields : forall file_of resolves n field rest,
  let def := fun x => field_definition file_of resolves n (x :: rest) field in
  field_definition file_of resolves n [] field = Nothing
  /\ (forall d, def (SVar d) = Found d None)
  /\ (forall v s, s <> 0 -> def (SIns v s) = of_span file_of resolves n s)
  /\ (forall f x s, let v := VFunc f (Some x) s in def (SIns v 0) = Found (mkDecl KFunc x s (file_of s)) (Some (TValue v)))
  /\ (forall f s, let v := VFunc f None s in def (SIns v 0) = Found (mkDecl KFunc field s (file_of s)) (Some (TValue v)))
  /\ (forall x, let v := VModule (Some x) in def (SIns v 0) = Found (mkDecl KVar x 0 None) (Some (TValue v)))
  /\ (forall x, let v := VOther x in def (SIns v 0) = Found (mkDecl KVar field 0 None) (Some (TValue v)))
  /\ def SBuiltin = Nothing.
Proof.
  intros file_of resolves n field rest. cbv zeta. repeat split. intros v s N. cbn. apply Nat.eqb_neq in N. now rewrite N.
Qed.
Print Assumptions C188_fields.
Lemma renaming_may is_package s d t n : prepare_renaming is_package s d t = Some n <-> (exists f, d_file d = Some f /\ is_package f = false) /\ may s d t n.
Proof.
  unfold prepare_renaming, may. destruct (d_file d) as [f|]; [|split; [discriminate|intros ((f & E & _) & _); discriminate]].
  destruct (is_package f) eqn:P; [split; [discriminate|intros ((f' & E & P') & _); congruence]|].
  assert (V : validate_fn_renaming t = true <-> forall v, t = Some (TValue v) -> exists f x y, v = VFunc f x y /\ own f).
  { unfold validate_fn_renaming. destruct t as [[[g x y|m|o]|u]|].
    - rewrite renamable_own. split; [intros O v E; injection E as <-; now exists g, x, y|intros H; destruct (H _ eq_refl) as (f' & x' & y' & E & O); now injection E as -> _ _].
    - split; [discriminate|intros H; destruct (H _ eq_refl) as (f' & x' & y' & E & _); discriminate].
    - split; [discriminate|intros H; destruct (H _ eq_refl) as (f' & x' & y' & E & _); discriminate].
    - split; [intros _ v E; discriminate|reflexivity].
    - split; [intros _ v E; discriminate|reflexivity]. }
  assert (F : exists f', Some f = Some f' /\ is_package f' = false) by (now exists f).
  assert (W : (if validate_fn_renaming t then Some (d_name d) else None) = Some n <-> n = d_name d /\ forall v, t = Some (TValue v) -> exists f x y, v = VFunc f x y /\ own f).
  { rewrite <- V. destruct (validate_fn_renaming t); [split; [intros E; injection E as <-; auto|intros (-> & _); reflexivity]|split; [discriminate|intros (_ & E); discriminate]]. }
  cbn [In]. destruct (d_kind d).
  1: { split; [intros E; injection E as <-; split; [exact F|left; auto]|intros (_ & [(_ & ->)|[([E|E] & _)|(E & _)]]); [reflexivity|discriminate|discriminate|]]. destruct E as [E|[E|[E|[E|[E|[E|[]]]]]]]; discriminate. }
  1,2: rewrite W; split; [intros (E & H); split; [exact F|right; left; auto]|intros (_ & [(E & _)|[(_ & H)|(E & _)]]); [discriminate|exact H|]; destruct E as [E|[E|[E|[E|[E|[E|[]]]]]]]; discriminate].
  1-6: split; [intros E; split; [exact F|right; right; split; [intuition|exact E]]|intros (_ & [(E & _)|[([E|E] & _)|(_ & H)]]); [discriminate|discriminate|discriminate|exact H]].
  all: split; [discriminate|intros (_ & [(E & _)|[([E|E] & _)|(E & _)]]); try discriminate; destruct E as [E|[E|[E|[E|[E|[E|[]]]]]]]; discriminate].
Qed.
(** C188: renaming is prepared, at the place of the cursor, exactly for variables, own functions and paths of modules that are defined in files outside of packages; never for fields. *)
Theorem C188_rename : forall is_package s def range n,
  prepare_rename is_package s def = Some (range, n) <->
  s_field s = false /\ range = s_range s /\ exists d t, def = Some (d, t) /\ (exists f, d_file d = Some f /\ is_package f = false) /\ may s d t n.
Proof.
  intros is_package s def range n. unfold prepare_rename. destruct (s_field s); [split; [discriminate|intros (E & _); discriminate]|]. destruct def as [[d t]|]; [|split; [discriminate|intros (_ & _ & d & t & E & _); discriminate]].
  pose proof (renaming_may is_package s d t) as M. destruct (prepare_renaming is_package s d t) as [m|].
  - split; [intros E; injection E as <- <-; split; [reflexivity|]; split; [reflexivity|]; exists d, t; split; [reflexivity|]; now apply M|].
    intros (_ & -> & d' & t' & E & H). injection E as <- <-. apply M in H. now injection H as ->.
  - split; [discriminate|]. intros (_ & -> & d' & t' & E & H). injection E as <- <-. apply M in H. discriminate.
Qed.
Print Assumptions C188_rename.
(** C188, in part: what is prepared is renamed, and what is renamed and no field is prepared.  (Missing: fields, see [C188_agree_refuted].) *)
Theorem C188_agree_partial : forall is_package s def,
  (prepare_rename is_package s def <> None -> renames is_package s def = true) /\ (s_field s = false -> renames is_package s def = true -> prepare_rename is_package s def <> None).
Proof.
  intros is_package s def. unfold prepare_rename, renames. destruct (s_field s); destruct def as [[d t]|]; try (destruct (prepare_renaming is_package s d t)); split; congruence.
Qed.
Print Assumptions C188_agree_partial.
(** C188 fails: a field is renamed though that is not prepared. *)
Theorem C188_agree_refuted : exists is_package s def, renames is_package s def = true /\ prepare_rename is_package s def = None.
Proof. exists (fun _ => false), (mkSite true None (1, 2)), (Some (mkDecl KVar 5 1 (Some 0), None)). now split. Qed.
Print Assumptions C188_agree_refuted.

(** An import of an import of a variable; a function of a plugin with arguments; a native one. *)
Example C188_nonvacuous :
  let table := fun s => match s with
    | 3 => Some (Some (ERef (Some (EDecl (mkDecl KImportAlias 7 2 (Some 0)))) (Some (TOther 4))), None)
    | 2 => Some (Some (EDecl (mkDecl KImport 6 1 (Some 0))), None)
    | 1 => Some (Some (EDecl (mkDecl KVar 5 9 (Some 1))), None)
    | _ => None end in
  of_span (fun _ => None) table 3 3 = Found (mkDecl KVar 5 9 (Some 1)) None
  /\ ordered table (fun s => s)
  /\ declared table 3 (mkDecl KVar 5 9 (Some 1)) None
  /\ prepare_rename (fun f => f =? 2) (mkSite false None (3, 4)) (Some (mkDecl KFunc 5 9 (Some 1), Some (TValue (VFunc (FWith FPlugin) None 9)))) = Some ((3, 4), 5)
  /\ prepare_rename (fun f => f =? 2) (mkSite false None (3, 4)) (Some (mkDecl KFunc 5 9 (Some 1), Some (TValue (VFunc (FWith FNative) None 9)))) = None
  /\ prepare_rename (fun f => f =? 2) (mkSite false None (3, 4)) (Some (mkDecl KVar 5 9 (Some 2), None)) = None.
Proof.
  cbv zeta. split; [reflexivity|]. split; [|split; [|repeat split]].
  - intros s d t (N & e & u & E & R) I. destruct s as [|[|[|[|s]]]]; try discriminate; injection E as <- <-; inversion R; subst; clear R.
    + destruct I; discriminate.
    + cbn. lia.
    + match goal with H : root _ _ _ _ |- _ => inversion H; subst; clear H end. cbn. lia.
  - pose proof (C188_definitions (fun _ => None) (fun s => match s with
    | 3 => Some (Some (ERef (Some (EDecl (mkDecl KImportAlias 7 2 (Some 0)))) (Some (TOther 4))), None)
    | 2 => Some (Some (EDecl (mkDecl KImport 6 1 (Some 0))), None)
    | 1 => Some (Some (EDecl (mkDecl KVar 5 9 (Some 1))), None)
    | _ => None end) 3 3) as H. cbv zeta in H. destruct H as (_ & _ & H & _); [vm_compute; discriminate|].
    destruct (H (mkDecl KVar 5 9 (Some 1)) None eq_refl) as [D|(u & E & _)]; [exact D|discriminate].
Qed.
