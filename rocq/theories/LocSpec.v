(** What translations should do, stated without the model's helpers. *)
From Coq Require Import String.
From Coq Require Import List Arith NArith Bool Permutation.
From Verif Require Import LocModel.
Import ListNotations.
Local Open Scope nat_scope.

(** * Messages *)

Definition value_of (args : list (text * text)) (n : text) (v : text) : Prop :=
  exists a b, args = a ++ (n, v) :: b /\ forall v', ~ In (n, v') a.
Definition unknown (args : list (text * text)) (n : text) : Prop := forall v, ~ In (n, v) args.
(** What a placeholder becomes. *)
Definition stands (args : list (text * text)) (n o : text) : Prop := value_of args n o \/ unknown args n /\ o = 123%N :: n.

(** What is said: after each placeholder one character is lost. *)
Inductive said (args : list (text * text)) : text -> text -> Prop :=
| said_end t : ~ In 123%N t -> said args t t
| said_hole t n c r o out : ~ In 123%N t -> ~ In 125%N n -> stands args n o -> said args r out ->
    said args (t ++ 123%N :: n ++ 125%N :: c :: r) (t ++ o ++ out)
| said_last t n o : ~ In 123%N t -> ~ In 125%N n -> stands args n o -> said args (t ++ 123%N :: n ++ [125%N]) (t ++ o)
| said_open t n o : ~ In 123%N t -> ~ In 125%N n -> stands args n o -> said args (t ++ 123%N :: n) (t ++ o).

(** What should be said. *)
Inductive meant (args : list (text * text)) : text -> text -> Prop :=
| meant_end t : ~ In 123%N t -> meant args t t
| meant_hole t n r v out : ~ In 123%N t -> ~ In 125%N n -> value_of args n v -> meant args r out ->
    meant args (t ++ 123%N :: n ++ 125%N :: r) (t ++ v ++ out).

(** * Maps *)

Definition lookup2 (k l : text) (m : map_of (map_of text)) : option text :=
  match lookup k m with Some d => lookup l d | None => None end.

(** * The file *)

Definition trimmed (s t : text) : Prop :=
  exists a b, s = a ++ t ++ b /\ (forall c, In c a -> white c = true) /\ (forall c, In c b -> white c = true) /\
    (forall c r, t = c :: r -> white c = false) /\ (forall c r, t = r ++ [c] -> white c = false).
Fixpoint join (ls : list text) : text :=
  match ls with [] => [] | [l] => l | l :: ls' => l ++ 10%N :: join ls' end.
Definition lines_of (s : text) (ls : list text) : Prop := s = join ls /\ ls <> [] /\ forall l, In l ls -> ~ In 10%N l.

(** What the lines say: key, language, message. *)
Inductive reads : text -> list text -> list (text * text * text) -> Prop :=
| reads_nil key : reads key [] []
| reads_skip key l t ls ts : trimmed l t -> t = [] \/ (exists r, t = 35%N :: r) -> reads key ls ts -> reads key (l :: ls) ts
| reads_section key l k c ls ts : trimmed l (91%N :: k ++ [c]) -> (c < 128)%N -> reads k ls ts -> reads key (l :: ls) ts
| reads_value key l a b lang v ls ts :
    trimmed l (a ++ 61%N :: b) -> ~ In 61%N a -> (forall r, a <> 35%N :: r) -> (forall r, a <> 91%N :: r) ->
    trimmed a lang -> trimmed b v -> reads key ls ts -> reads key (l :: ls) ((key, lang, v) :: ts).
Definition last_value (ts : list (text * text * text)) (k l v : text) : Prop :=
  exists a b, ts = a ++ (k, l, v) :: b /\ forall v', ~ In (k, l, v') b.

Definition last_kv (kvs : list (text * text)) (k v : text) : Prop :=
  exists a b, kvs = a ++ (k, v) :: b /\ forall v', ~ In (k, v') b.
(** The message of a value. *)
Definition decoded (json : text -> option text) (w v : text) : Prop :=
  (exists r, w = 34%N :: r) /\ json w = Some v \/ (forall r, w <> 34%N :: r) /\ v = w.

(** Texts that can be written. *)
Definition clean (s : text) : Prop := trimmed s s.
Definition ok_key (k : text) : Prop := ~ In 10%N k.
Definition ok_lang (l : text) : Prop := ~ In 10%N l /\ ~ In 61%N l /\ clean l /\ (forall r, l <> 35%N :: r) /\ (forall r, l <> 91%N :: r).
Definition ok_value (v : text) : Prop := ~ In 10%N v /\ clean v.
Definition ok_map (m : map_of (map_of text)) : Prop :=
  NoDup (map fst m) /\
  forall k d, In (k, d) m -> ok_key k /\ NoDup (map fst d) /\ forall l v, In (l, v) d -> ok_lang l /\ ok_value v.

(** * Literals of the program *)

Inductive literal : text -> Prop :=
| literal_nil : literal []
| literal_char c s : c <> 92%N -> c <> 34%N -> literal s -> literal (c :: s)
| literal_escape c s : literal s -> literal (92%N :: c :: s).
Definition blank (s : text) : Prop := forall c, In c s -> white c = true.
Definition is_call (content k v : text) : Prop :=
  exists pre m w1 w2 w3 w4 post, content = pre ++ lit "tinymist_l10n::" ++ m ++ w1 ++ lit "(" ++ w2 ++ in_quotes k ++ w3 ++ lit "," ++ w4 ++ in_quotes v ++ post /\
    (m = lit "t!" \/ m = lit "bail!") /\ blank w1 /\ blank w2 /\ blank w3 /\ blank w4 /\ literal k /\ literal v.
Definition is_call_ts (content k : text) : Prop :=
  exists pre w1 w2 post, content = pre ++ lit "l10nMsg" ++ w1 ++ lit "(" ++ w2 ++ in_quotes k ++ post /\ blank w1 /\ blank w2 /\ literal k.
