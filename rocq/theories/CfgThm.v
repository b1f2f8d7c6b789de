(** Theorems about configuration, dynamic registration and position encoding
    (C14, C56-C62). *)
From Coq Require Import List String Ascii Bool Arith ZArith.
From Verif Require Import CfgModel CfgSpec CfgProof.
Import ListNotations.
Open Scope list_scope.
Open Scope string_scope.

(** An instance of the external functions for the examples: structures accept
    any object (its number of fields is the decoded value), paths are absolute
    when they start with a slash. *)
Definition demo : oracle := mkOracle
  (fun s j => match j with JObj l => Some (S (List.length l)) | JBool b => Some (if b then 1 else 0) | JNull => Some 0 | _ => None end)
  (fun _ => Some 1)
  (fun j => match j with Some (JArr (_ :: _)) => mkExtra (Some "/root") (Some "main.typ") 1 1 | _ => mkExtra None None 0 0 end)
  (fun p => match p with String "/"%char _ => true | _ => false end)
  (fun r e => match r with Some _ => 1 | None => 0 end).
Definition dynamic : const_config := mkConst true true false.

(** C14: registrations alternate, and after every prefix of a session a
    capability is registered exactly when the configuration enables it. *)
Theorem C14_registration_alternates : forall O k opts evs,
  let (s, o) := run O (start O k opts) (Initialized :: evs) in
  (dyn_tokens k = true -> registered CapTokens false o = Some (tokens_enabled (s_config s))) /\
  (dyn_fmt k = true -> registered CapFormat false o = Some (fmt_enabled (s_config s))).
Proof. exact alternation. Qed.
Print Assumptions C14_registration_alternates.

(** C14, in terms of what the client sent last. *)
Theorem C14_last_setting : forall O k opts evs m, snd (update_by_map O m) = true ->
  let o := snd (run O (start O k opts) (Initialized :: evs ++ [DidChange (JObj m)])) in
  (dyn_tokens k = true -> exists b, registered CapTokens false o = Some b /\
     (b = true <-> get "semanticTokens" m <> Some (JStr "disable"))) /\
  (dyn_fmt k = true -> exists b, registered CapFormat false o = Some b /\
     (b = true <-> get "formatterMode" m = Some (JStr "typstyle") \/ get "formatterMode" m = Some (JStr "typstfmt"))).
Proof. exact last_setting. Qed.
Print Assumptions C14_last_setting.

(** C14: a client without dynamic registration never sees these requests. *)
Theorem C14_static_clients : forall O k opts evs,
  let o := snd (run O (start O k opts) evs) in
  (dyn_tokens k = false -> ~ In (Register CapTokens) o /\ ~ In (Unregister CapTokens) o) /\
  (dyn_fmt k = false -> ~ In (Register CapFormat) o /\ ~ In (Unregister CapFormat) o).
Proof.
  intros O k opts evs. pose proof (run_silent O evs (start O k opts)) as H.
  destruct (run O (start O k opts) evs) as [s o]. destruct H as [_ [H1 H2]]. cbn [snd].
  split; intros Hd; split; intros Hi; [apply (H1 Hd) in Hi|apply (H1 Hd) in Hi|apply (H2 Hd) in Hi|apply (H2 Hd) in Hi];
    destruct Hi; congruence.
Qed.
Print Assumptions C14_static_clients.
Example C14_nonvacuous :
  let evs := [Initialized; DidChange (JObj [("formatterMode", JStr "typstyle")]);
    DidChange (JObj [("semanticTokens", JStr "disable"); ("formatterMode", JStr "typstfmt")]);
    DidChange (JObj [("rootPath", JStr "relative")]); DidChange (JObj [("semanticTokens", JStr "enable")])] in
  snd (run demo (start demo dynamic None) evs) =
    [Register CapTokens; Register CapFormat; FormatterChanged; Unregister CapTokens; FormatterChanged;
     Register CapTokens; Unregister CapFormat; FormatterChanged] /\
  snd (update_by_map demo [("semanticTokens", JStr "enable")]) = true /\
  snd (update_by_map demo [("rootPath", JStr "relative")]) = false.
Proof. vm_compute. auto. Qed.

(** C56: false: a client that offers UTF-8 is served UTF-8 positions but is told
    nothing, and the protocol then prescribes UTF-16. *)
Theorem C56_encoding_agreed_refuted : exists offered,
  server_encoding offered <> match announced_encoding offered with Some e => e | None => Utf16 end.
Proof. exists (Some [Utf16; Utf8]). discriminate. Qed.
Print Assumptions C56_encoding_agreed_refuted.
(** C56: clients that do not offer UTF-8 agree with the server. *)
Theorem C56_encoding_agreed_partial : forall offered,
  (forall l, offered = Some l -> ~ In Utf8 l) ->
  server_encoding offered = match announced_encoding offered with Some e => e | None => Utf16 end.
Proof.
  intros [l|] H; [|reflexivity]. cbn. specialize (H l eq_refl).
  induction l as [|[] l IH]; cbn in *; tauto || (apply IH; tauto).
Qed.
Print Assumptions C56_encoding_agreed_partial.
Example C56_nonvacuous : forall l, Some [Utf32; Utf16] = Some l -> ~ In Utf8 l.
Proof. intros l E. inversion E; subst. cbn. intuition discriminate. Qed.

(** C57: settings that do not validate change nothing. *)
Theorem C57_rejected_settings : forall O m s, snd (update_by_map O m) = false ->
  step O s (DidChange (JObj m)) = (s, []).
Proof. exact rejected. Qed.
Print Assumptions C57_rejected_settings.
Example C57_nonvacuous : snd (update_by_map demo [("rootPath", JStr "relative"); ("semanticTokens", JStr "disable")]) = false.
Proof. reflexivity. Qed.

(** C58: sending the same settings again has no effect at all. *)
Theorem C58_repeated_settings : forall O m s,
  step O (fst (step O s (DidChange (JObj m)))) (DidChange (JObj m)) = (fst (step O s (DidChange (JObj m))), []).
Proof. exact repeated. Qed.
Print Assumptions C58_repeated_settings.
Example C58_nonvacuous :
  snd (step demo (start demo dynamic None) (DidChange (JObj [("exportPdf", JBool true); ("compileStatus", JStr "enable")])))
  = [ExportChanged; StatusChanged true].
Proof. reflexivity. Qed.

(** C59: false: [lint] is read from the key [preview]. *)
Theorem C59_own_key_refuted : exists O m m' s,
  get (own_key s) m = get (own_key s) m' /\
  c_set (fst (update_by_map O m)) s <> c_set (fst (update_by_map O m')) s.
Proof. exists demo, [("preview", JObj [])], [], Lint. vm_compute. split; [reflexivity|discriminate]. Qed.
Print Assumptions C59_own_key_refuted.
(** C59: and the documented key is ignored. *)
Theorem C59_lint_ignored_refuted : exists O v,
  dec O Lint v <> Some (default Lint) /\ dec O Lint v <> None /\
  c_set (fst (update_by_map O [("lint", v)])) Lint = default Lint.
Proof. exists demo, (JObj []). vm_compute. repeat split; discriminate. Qed.
Print Assumptions C59_lint_ignored_refuted.
(** C59: every other setting depends on its own key only. *)
Theorem C59_own_key_partial : forall O m m' s, s <> Lint -> get (own_key s) m = get (own_key s) m' ->
  c_set (fst (update_by_map O m)) s = c_set (fst (update_by_map O m')) s.
Proof. exact own_key_partial. Qed.
Print Assumptions C59_own_key_partial.
(** C59: and a decodable value is taken over. *)
Theorem C59_value_taken_partial : forall O m s v x, s <> Lint -> get (own_key s) m = Some v -> dec O s v = Some x ->
  c_set (fst (update_by_map O m)) s = x.
Proof.
  intros O m s v x Hs Hg Hd. cbn. unfold assign.
  replace (read_key s) with (own_key s) by (destruct s; congruence || reflexivity). rewrite Hg, Hd. reflexivity.
Qed.
Print Assumptions C59_value_taken_partial.
Example C59_nonvacuous :
  c_set (fst (update_by_map demo [("formatterPrintWidth", JNum 80); ("preview", JObj [])])) FormatterPrintWidth = 81.
Proof. reflexivity. Qed.

(** C60: false: the [tinymist] namespace is honoured in the initialization
    options but not in didChangeConfiguration. *)
Theorem C60_channels_agree_refuted : exists O k m,
  snd (update_by_map O m) = true /\ snd (initial_config O (Some (JObj m))) = true /\
  ~ same_config (s_config (fst (run O (start O k None) [Initialized; DidChange (JObj m)])))
                (fst (initial_config O (Some (JObj m)))).
Proof.
  exists demo, dynamic, [("tinymist", JObj [("semanticTokens", JStr "disable")])].
  split; [reflexivity|]. split; [reflexivity|]. intros [H _]. specialize (H SemanticTokens). vm_compute in H. discriminate.
Qed.
Print Assumptions C60_channels_agree_refuted.
Theorem C60_channels_agree_partial : forall O k m evs,
  (forall m', get "tinymist" m <> Some (JObj m')) -> snd (update_by_map O m) = true ->
  same_config (s_config (fst (run O (start O k None) (evs ++ [DidChange (JObj m)]))))
              (fst (initial_config O (Some (JObj m)))).
Proof. exact channels_partial. Qed.
Print Assumptions C60_channels_agree_partial.
Example C60_nonvacuous :
  let m := [("semanticTokens", JStr "disable"); ("tinymist", JNull)] in
  (forall m', get "tinymist" m <> Some (JObj m')) /\ snd (update_by_map demo m) = true.
Proof. split; [intros m'; discriminate|reflexivity]. Qed.

(** C61: false: settings that are not in the list of polled items fall back to
    their defaults whenever the client is polled. *)
Theorem C61_polling_keeps_settings_refuted : exists O k m s,
  (forall s, dec O s JNull = None \/ dec O s JNull = Some (default s)) /\
  s_config (start O k (Some (JObj m))) = fst (update_by_map O m) /\
  c_set (s_config (fst (run O (start O k (Some (JObj m))) [Initialized; Answer (Some (answer_plain m))]))) s
    <> c_set (s_config (start O k (Some (JObj m)))) s.
Proof.
  exists demo, dynamic, [("customizedShowDocument", JBool true)], CustomizedShowDocument.
  split; [intros []; vm_compute; auto|]. split; [reflexivity|]. vm_compute. discriminate.
Qed.
Print Assumptions C61_polling_keeps_settings_refuted.
(** C61: listed settings survive polling. *)
Theorem C61_polling_keeps_settings_partial : forall O m s,
  (forall k, In k config_items -> get ("tinymist." ++ k) m = None) ->
  (dec O s JNull = None \/ dec O s JNull = Some (default s)) ->
  In (read_key s) config_items ->
  c_set (fst (update_by_map O (values_to_map (answer_plain m)))) s = c_set (fst (update_by_map O m)) s.
Proof. exact polled. Qed.
Print Assumptions C61_polling_keeps_settings_partial.
Example C61_nonvacuous :
  let m := [("formatterMode", JStr "typstyle"); ("exportPdf", JBool true)] in
  (forall k, In k config_items -> get ("tinymist." ++ k) m = None) /\
  In (read_key FormatterMode) config_items /\
  c_set (fst (update_by_map demo (values_to_map (answer_plain m)))) FormatterMode = 1 /\
  c_set (fst (update_by_map demo (values_to_map (answer_plain m)))) ExportPdf = 1.
Proof.
  cbv zeta. split; [|vm_compute; intuition].
  intros k Hk. vm_compute in Hk.
  repeat (destruct Hk as [<-|Hk]; [reflexivity|]). destruct Hk.
Qed.

(** C62: false: a namespaced object does not merely take precedence, it resets
    every setting it does not mention. *)
Theorem C62_namespace_keeps_rest_refuted : exists O m m' s,
  get "tinymist" m = Some (JObj m') /\ get (own_key s) m' = None /\ get (own_key s) m <> None /\
  snd (initial_config O (Some (JObj m))) = true /\
  c_set (fst (initial_config O (Some (JObj m)))) s <> c_set (fst (update_by_map O m)) s.
Proof.
  exists demo, [("semanticTokens", JStr "disable"); ("tinymist", JObj [])], [], SemanticTokens.
  vm_compute. repeat split; discriminate.
Qed.
Print Assumptions C62_namespace_keeps_rest_refuted.
(** C62: settings of the namespaced object do take precedence. *)
Theorem C62_namespace_precedence_partial : forall O m m' s v x, s <> Lint ->
  snd (update_by_map O m) = true ->
  get "tinymist" m = Some (JObj m') -> get (own_key s) m' = Some v -> dec O s v = Some x ->
  c_set (fst (initial_config O (Some (JObj m)))) s = x.
Proof.
  intros O m m' s v x Hs Hok Hn Hg Hd. unfold initial_config, update.
  destruct (update_by_map O m) as [c ok]. cbn in Hok. subst ok. rewrite Hn. cbn [as_object].
  eapply C59_value_taken_partial; eauto.
Qed.
Print Assumptions C62_namespace_precedence_partial.
Example C62_nonvacuous :
  c_set (fst (initial_config demo (Some (JObj [("semanticTokens", JStr "enable"); ("tinymist", JObj [("semanticTokens", JStr "disable")])])))) SemanticTokens = 0.
Proof. reflexivity. Qed.
