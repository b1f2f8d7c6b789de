(** Theorems about positions and edits (C01-C06, C53). *)
From Coq Require Import List NArith Arith Bool.
From Verif Require Import TextModel TextSpec TextProof.
Import ListNotations.

(** C01: offset -> UTF-16 position -> offset, at every cut of every text. *)
Theorem C01_utf16_roundtrip : forall t p s, t = p ++ s ->
  exists x, to_lsp_position (len8 p) Utf16 t = Some x /\
            to_typst_position x Utf16 t = Some (len8 p).
Proof. exact (roundtrip Utf16). Qed.
Print Assumptions C01_utf16_roundtrip.
Example C01_nonvacuous :
  to_lsp_position 7 Utf16 sample = Some (mkPos 0 4) /\
  to_typst_position (mkPos 0 4) Utf16 sample = Some 7 /\
  to_lsp_position 9 Utf16 sample = Some (mkPos 1 0).
Proof. repeat split; vm_compute; reflexivity. Qed.

(** C01, meaning: the produced position is exactly the one an editor uses for
    that cut (texts whose only line terminators are LF, CR and CR LF). *)
Theorem C01_position_meaning : forall t x p s,
  plain t -> client_at t x p s -> to_lsp_position (len8 p) Utf16 t = Some x.
Proof. exact position_meaning. Qed.
Print Assumptions C01_position_meaning.
Example C01_meaning_nonvacuous : plain sample /\
  client_at sample (mkPos 1 1) [97; 233; 129402; 13; 10; 120]%N [10]%N.
Proof. exact C01_meaning_example. Qed.

(** C02: the same for the UTF-8 mode. *)
Theorem C02_utf8_roundtrip : forall t p s, t = p ++ s ->
  exists x, to_lsp_position (len8 p) Utf8 t = Some x /\
            to_typst_position x Utf8 t = Some (len8 p).
Proof. exact (roundtrip Utf8). Qed.
Print Assumptions C02_utf8_roundtrip.
Example C02_nonvacuous :
  to_lsp_position 7 Utf8 sample = Some (mkPos 0 3) /\
  to_typst_position (mkPos 0 3) Utf8 sample = Some 7.
Proof. split; vm_compute; reflexivity. Qed.

(** C03 is false: the UTF-8 mode counts characters, not bytes. *)
Theorem C03_utf8_columns_refuted : exists t o x bl,
  to_lsp_position o Utf8 t = Some x /\
  line_to_byte t (p_line x) = Some bl /\ p_char x <> o - bl.
Proof. exact utf8_columns_refuted. Qed.
Print Assumptions C03_utf8_columns_refuted.

(** C03, what holds: byte columns when the part of the line before the cut is
    ASCII.  Missing: lines with multi-byte characters (false there). *)
Theorem C03_utf8_columns_partial : forall t p s pre r,
  t = p ++ s -> p = concat pre ++ r ->
  (exists l post, split_lines is_newline t = pre ++ l :: post /\
     (exists rest, l = r ++ rest /\ (rest <> [] \/ post = []))) ->
  (forall c, In c r -> (c < 128)%N) ->
  to_lsp_position (len8 p) Utf8 t = Some (mkPos (length pre) (len8 p - len8 (concat pre))).
Proof. exact utf8_columns_ascii. Qed.
Print Assumptions C03_utf8_columns_partial.
Example C03_nonvacuous : to_lsp_position 10 Utf8 sample = Some (mkPos 1 1).
Proof. vm_compute; reflexivity. Qed.

(** C04: every produced offset is a cut of the text; failure happens in the
    UTF-16 mode only, exactly for targets past the end of the whole text or
    inside a final surrogate pair; lines past the end clamp to the end. *)
Theorem C04_in_bounds : forall x e t,
  match to_typst_position x e t with
  | Some o => exists p s, t = p ++ s /\ o = len8 p
  | None => e = Utf16 /\ p_line x < length (split_lines is_newline t) /\
            misses t (len16 (concat (firstn (p_line x) (split_lines is_newline t))) + p_char x)
  end.
Proof. exact to_typst_cases. Qed.
Print Assumptions C04_in_bounds.

Theorem C04_failure_iff : forall x t,
  to_typst_position x Utf16 t = None <->
  p_line x + 1 < length (split_lines is_newline t) /\
    misses t (len16 (concat (firstn (p_line x) (split_lines is_newline t))) + p_char x)
  \/ p_line x + 1 = length (split_lines is_newline t) /\
     len16 (concat (firstn (p_line x) (split_lines is_newline t))) + p_char x < len16 t /\
     misses t (len16 (concat (firstn (p_line x) (split_lines is_newline t))) + p_char x).
Proof. exact to_typst_none_iff. Qed.
Print Assumptions C04_failure_iff.

Theorem C04_clamps : forall t x e,
  length (split_lines is_newline t) <= p_line x -> to_typst_position x e t = Some (len8 t).
Proof. exact to_typst_clamp. Qed.
Print Assumptions C04_clamps.

(** C04, exactness: a column that is a character boundary of its line denotes
    that boundary. *)
Theorem C04_exact : forall t i r rest,
  nth_error (split_lines is_newline t) i = Some (r ++ rest) ->
  to_typst_position (mkPos i (len16 r)) Utf16 t
  = Some (len8 (concat (firstn i (split_lines is_newline t)) ++ r)).
Proof. exact to_typst_exact. Qed.
Print Assumptions C04_exact.
Example C04_nonvacuous :
  to_typst_position (mkPos 0 50) Utf16 sample = None /\
  to_typst_position (mkPos 9 50) Utf16 sample = Some (len8 sample) /\
  nth_error (split_lines is_newline sample) 1 = Some ([120] ++ [10])%N.
Proof. repeat split; vm_compute; reflexivity. Qed.

(** C05: for every history of open/change/close notifications of a client whose
    texts use LF, CR LF or CR line ends, the server's documents and what it
    pushes to the compiler are exactly the client's documents.  Partial: texts
    with VT, FF, NEL, U+2028 or U+2029 are excluded ([plain]) because the
    statement is false for them, see the next theorem. *)
Theorem C05_documents_agree_partial : forall evs d' pus,
  client_run (fun _ => None) evs d' pus ->
  exists s', doc_run [] evs = Done (s', pus) /\ (forall p, doc_get p s' = d' p).
Proof. exact documents_agree. Qed.
Print Assumptions C05_documents_agree_partial.

Theorem C05_single_change_partial : forall t c t',
  plain t -> client_change t c t' -> apply_change Utf16 t c = Some t'.
Proof. exact client_change_ok. Qed.
Print Assumptions C05_single_change_partial.
Example C05_nonvacuous :
  client_run (fun _ => None)
    [DidOpen 1 [97; 233; 10; 98]%N;
     DidChange 1 [mkChange (Some (mkRange (mkPos 0 1) (mkPos 1 0))) [129402]%N]]
    (cset (cset (fun _ => None) 1 (Some [97; 233; 10; 98]%N)) 1 (Some [97; 129402; 98]%N))
    [PushInsert 1 [97; 233; 10; 98]%N; PushInsert 1 [97; 129402; 98]%N].
Proof. exact C05_example. Qed.

(** C05 is false in general: typst ends lines at U+2028 (and VT, FF, NEL,
    U+2029), LSP clients do not. *)
Theorem C05_documents_agree_refuted : exists t c t' t'',
  client_change t c t' /\ apply_change Utf16 t c = Some t'' /\ t' <> t''.
Proof. exact documents_agree_refuted. Qed.
Print Assumptions C05_documents_agree_refuted.

(** C06 is false: a range past the end of a text on a non-final line, a column
    inside a final surrogate pair, or a reversed range panics. *)
Theorem C06_no_panic_refuted : exists p t c1 c2 c3,
  doc_step Utf16 [(p, t)] (DidChange p [c1]) = Panic /\
  doc_step Utf16 [(p, t)] (DidChange p [c2]) = Panic /\
  doc_step Utf16 [(p, t)] (DidChange p [c3]) = Panic.
Proof. exact no_panic_refuted. Qed.
Print Assumptions C06_no_panic_refuted.

(** C06, what holds: a panic needs an unconvertible end point or a reversed
    range (in offsets); everything else is applied. *)
Theorem C06_no_panic_partial : forall e t r new a b,
  to_typst_range r e t = Some (a, b) -> a <= b ->
  exists p m s, t = p ++ m ++ s /\ a = len8 p /\ b = len8 (p ++ m) /\
    apply_change e t (mkChange (Some r) new) = Some (p ++ new ++ s).
Proof. exact no_panic_ordered. Qed.
Print Assumptions C06_no_panic_partial.
Example C06_nonvacuous :
  to_typst_range (mkRange (mkPos 0 1) (mkPos 1 1)) Utf16 sample = Some (1, 10) /\ 1 <= 10.
Proof. split; [vm_compute; reflexivity|repeat constructor]. Qed.

(** C53 is false: a column past the end of a line must mean the end of that
    line, but it lands on a following line (UTF-16) or after the terminator
    (UTF-8 mode). *)
Theorem C53_column_clamp_refuted :
  (exists t i col o, nth_error (split_lines is_newline t) i = Some [97; 10]%N /\
     to_typst_position (mkPos i col) Utf16 t = Some o /\
     len8 (concat (firstn (i + 1) (split_lines is_newline t))) < o) /\
  (exists t i col, nth_error (split_lines is_newline t) i = Some [97; 10]%N /\
     to_typst_position (mkPos i col) Utf8 t
     = Some (len8 (concat (firstn (i + 1) (split_lines is_newline t))))).
Proof. exact column_clamp_refuted. Qed.
Print Assumptions C53_column_clamp_refuted.

(** C53, what holds: on the last line columns clamp to the end of the text. *)
Theorem C53_column_clamp_partial : forall t i col l,
  i + 1 = length (split_lines is_newline t) ->
  nth_error (split_lines is_newline t) i = Some l -> len16 l <= col ->
  to_typst_position (mkPos i col) Utf16 t = Some (len8 t).
Proof. exact column_clamp_last. Qed.
Print Assumptions C53_column_clamp_partial.
Example C53_nonvacuous :
  2 + 1 = length (split_lines is_newline sample) /\
  nth_error (split_lines is_newline sample) 2 = Some [] /\ len16 [] <= 7.
Proof. repeat split; try (vm_compute; reflexivity). apply Nat.le_0_l. Qed.
