(** What the entries of a bibliography are to be, stated without the functions
    of the model. *)
From Coq Require Import List Arith NArith Bool.
From Verif Require Import BibModel.
Import ListNotations.

(** * YAML documents *)

(** A node: a scalar with its place, a mapping with its end, a sequence, or an
    alias. *)
Inductive node :=
| NScalar (s : text) (a : nat)
| NMap (l : list (node * node)) (e : nat)
| NSeq (l : list node)
| NAlias.

(** What the parser sends for it. *)
Fixpoint sent (n : node) : list event :=
  match n with
  | NScalar s a => [Scalar s a]
  | NMap l e => MapStart :: flat_map (fun p => sent (fst p) ++ sent (snd p)) l ++ [MapEnd e]
  | NSeq l => Other :: flat_map sent l ++ [Other]
  | NAlias => [Other]
  end.
(** For a file of documents. *)
Definition stream (ds : list node) : list event := Other :: flat_map (fun d => Other :: sent d ++ [Other]) ds ++ [Other].

(** The scalars and mappings of a node that are in no other mapping of it. *)
Fixpoint flat (n : node) : list node :=
  match n with NSeq l => flat_map flat l | NAlias => [] | _ => [n] end.
(** Those of the outermost mappings. *)
Definition inner (n : node) : list node :=
  match n with NMap l _ => flat_map (fun p => flat (fst p) ++ flat (snd p)) l | _ => [] end.
Definition parts (ds : list node) : list node := flat_map (fun d => flat_map inner (flat d)) ds.

(** Each mapping right after a scalar: its name, the place of that, and the
    end of the mapping. *)
Inductive named_maps : list node -> list (text * nat * nat) -> Prop :=
| named_nil : named_maps [] []
| named_entry s a l e r out : named_maps r out -> named_maps (NScalar s a :: NMap l e :: r) ((s, a, e) :: out)
| named_skip x r out : (forall s a l e r', x :: r <> NScalar s a :: NMap l e :: r') -> named_maps r out -> named_maps (x :: r) out.

(** A bibliography as it should be: under each name a mapping, or something
    with no mapping in it. *)
Inductive no_maps : node -> Prop :=
| no_scalar s a : no_maps (NScalar s a)
| no_seq l : Forall no_maps l -> no_maps (NSeq l)
| no_alias : no_maps NAlias.
Inductive biblio : list (node * node) -> list (text * nat * nat) -> Prop :=
| biblio_nil : biblio [] []
| biblio_entry s a l e r out : biblio r out -> biblio ((NScalar s a, NMap l e) :: r) ((s, a, e) :: out)
| biblio_other s a v r out : no_maps v -> biblio r out -> biblio ((NScalar s a, v) :: r) out.

(** * Offsets *)

(** The bytes of a character, and of a text. *)
Definition width (c : N) (n : nat) : Prop :=
  (c < 128)%N /\ n = 1 \/ (128 <= c < 2048)%N /\ n = 2 \/ (2048 <= c < 65536)%N /\ n = 3 \/ (65536 <= c)%N /\ n = 4.
Inductive bytes : text -> nat -> Prop :=
| bytes_nil : bytes [] 0
| bytes_cons c s n k : width c n -> bytes s k -> bytes (c :: s) (n + k).

(** The [n]-th character of [s] is at byte [b]. *)
Definition at_byte (s : text) (n b : nat) : Prop := exists u v, s = u ++ v /\ length u = n /\ bytes u b.

(** What becomes of the names and mappings found: those in the text. *)
Inductive placed (f : nat) (s : text) : list (text * nat * nat) -> list (text * entry) -> Prop :=
| placed_nil : placed f s [] []
| placed_in k a e l out a' b' e' :
    at_byte s a a' -> at_byte s (a + length k) b' -> at_byte s e e' -> placed f s l out ->
    placed f s ((k, a, e) :: l) ((k, {| file := f; name_range := (a', b'); range := (a', e'); raw := None |}) :: out)
| placed_out k a e l out :
    (length s < a + length k \/ length s < e) -> placed f s l out -> placed f s ((k, a, e) :: l) out.

(** * Files *)

(** What is done with a key, in order. *)
Inductive act := Def (k : text) (e : entry) | Raw (k : text) (r : nat).
Definition acts (s : source) : list act :=
  match entries s with
  | None => []
  | Some es => map (fun x => Def (fst x) (snd x)) es ++ match bib s with Some bs => map (fun x => Raw (fst x) (snd x)) bs | None => [] end
  end.
Definition about (k : text) (a : act) : Prop := match a with Def k' _ => k' = k | Raw k' _ => k' = k end.
Definition defines (k : text) (a : act) : Prop := match a with Def k' _ => k' = k | Raw _ _ => False end.

(** After these acts the key has this entry: the last definition, with the
    last entry of hayagriva after it. *)
Definition stands (k : text) (e : entry) (l : list act) : Prop :=
  exists l1 e0 l2, l = l1 ++ Def k e0 :: l2 /\ (forall a, In a l2 -> ~ defines k a) /\
    file e = file e0 /\ name_range e = name_range e0 /\ range e = range e0 /\
    ((raw e = raw e0 /\ forall a, In a l2 -> ~ about k a) \/
     exists m1 r m2, l2 = m1 ++ Raw k r :: m2 /\ raw e = Some r /\ forall a, In a m2 -> ~ about k a).

(** The keys in the order of their first definitions. *)
Inductive first_keys : list act -> list text -> Prop :=
| first_nil : first_keys [] []
| first_new l k e ks : first_keys l ks -> ~ In k ks -> first_keys (l ++ [Def k e]) (ks ++ [k])
| first_old l k e ks : first_keys l ks -> In k ks -> first_keys (l ++ [Def k e]) ks
| first_raw l k r ks : first_keys l ks -> first_keys (l ++ [Raw k r]) ks.

(** The same letters, small in [b]. *)
Definition small_of (c d : N) : Prop := ((65 <= c <= 90 /\ d = c + 32) \/ ((c < 65 \/ 90 < c) /\ d = c))%N.
Definition spelled (e w : text) : Prop := Forall2 small_of e w.

(** What a file contributes. *)
Definition yaml_name (e : text) : Prop := spelled e [121; 109; 108]%N \/ spelled e [121; 97; 109; 108]%N.
Definition tex_name (e : text) : Prop := spelled e [98; 105; 98]%N.
Definition gives (i : input) (s : source) : Prop :=
  (exists e c es, ext i = Some e /\ yaml_name e /\ content i = Some c /\ from_content (id i) c (events i) = Some es /\ entries s = Some es /\ bib s = hayagriva i) \/
  (exists e c, ext i = Some e /\ tex_name e /\ content i = Some c /\ bib s = hayagriva i /\
     match tex i, entries s with
     | None, None => True
     | Some l, Some es => Forall2 (fun x y => fst y = fst (fst x) /\ file (snd y) = id i /\ name_range (snd y) = snd (fst x) /\ range (snd y) = snd x /\ raw (snd y) = None) l es
     | _, _ => False
     end) \/
  (entries s = None /\ (content i = None \/ ext i = None \/ exists e, ext i = Some e /\ ~ yaml_name e /\ ~ tex_name e)).
