(** Independent vocabulary for documents and positions: what an editor means by
    a (line, character) pair. *)
From Coq Require Import List NArith Arith Bool.
From Verif Require Import TextModel.
Import ListNotations.

(** A text cut into its lines, each with its terminator; the last one may be
    empty.  [nl] says which characters end a line; CR LF counts once. *)
Fixpoint split_lines (nl : char -> bool) (t : text) {struct t} : list text :=
  match t with
  | [] => [[]]
  | c :: r =>
      if nl c then
        match r with
        | d :: r' => if ((c =? CR) && (d =? LF))%N
                     then [c; d] :: split_lines nl r'
                     else [c] :: split_lines nl r
        | [] => [[c]; []]
        end
      else match split_lines nl r with
           | l :: ls => (c :: l) :: ls
           | [] => [[c]]
           end
  end.

(** End-of-line characters of the language server protocol (LF, CR LF, CR). *)
Definition lsp_nl (c : char) : bool := ((c =? LF) || (c =? CR))%N.

(** Texts without the line separators that only typst knows about
    (VT, FF, NEL, U+2028, U+2029). *)
Definition plain (t : text) : Prop :=
  forall c, In c t -> lsp_nl c = is_newline c.

(** The client's position [x] denotes the cut [t = p ++ s]. *)
Definition client_at (t : text) (x : pos) (p s : text) : Prop :=
  t = p ++ s /\
  exists r rest,
    nth_error (split_lines lsp_nl t) (p_line x) = Some (r ++ rest) /\
    p = concat (firstn (p_line x) (split_lines lsp_nl t)) ++ r /\
    (forall c, In c r -> lsp_nl c = false) /\
    len16 r = p_char x.

(** One content change as the client performs it on its own document. *)
Inductive client_change (t : text) : change -> text -> Prop :=
| CCFull new : client_change t (mkChange None new) new
| CCRange a b p m s new :
    client_at t a p (m ++ s) ->
    client_at t b (p ++ m) s ->
    client_change t (mkChange (Some (mkRange a b)) new) (p ++ new ++ s).

Inductive client_changes : text -> list change -> text -> Prop :=
| CCNil t : client_changes t [] t
| CCCons t c t' cs t'' :
    client_change t c t' -> client_changes t' cs t'' ->
    client_changes t (c :: cs) t''.

(** The set of documents the client has open, as a partial map. *)
Definition cdocs := nat -> option text.
Definition cset (d : cdocs) (p : nat) (v : option text) : cdocs :=
  fun q => if q =? p then v else d q.

(** A well-behaved client's step together with the content it expects the
    server to use for that document. *)
Inductive client_step (d : cdocs) : doc_event -> cdocs -> push -> Prop :=
| CSOpen p t : plain t -> client_step d (DidOpen p t) (cset d p (Some t)) (PushInsert p t)
| CSClose p : client_step d (DidClose p) (cset d p None) (PushRemove p)
| CSChange p t t' cs :
    d p = Some t -> client_changes t cs t' ->
    (forall c, In c cs -> plain (c_text c)) ->
    client_step d (DidChange p cs) (cset d p (Some t')) (PushInsert p t').

Inductive client_run : cdocs -> list doc_event -> cdocs -> list push -> Prop :=
| CRNil d : client_run d [] d []
| CRCons d ev d' pu evs d'' pus :
    client_step d ev d' pu -> client_run d' evs d'' pus ->
    client_run d (ev :: evs) d'' (pu :: pus).

(** A UTF-16 offset (from the start of the text) that is past the end, or
    strictly inside a surrogate pair that is the very last character. *)
Definition misses (t : text) (u : nat) : Prop :=
  len16 t < u \/ exists p c, t = p ++ [c] /\ len16 p < u < len16 t.
