(** What the family of a font is, said of its name. *)
From Coq Require Import String Ascii List Arith Bool.
Import ListNotations.
Local Open Scope list_scope.

(** The codes of a text. *)
Definition codes (s : string) : list nat := map nat_of_ascii (list_ascii_of_string s).
(** Separators, words for styles, and words that modify these. *)
Definition sep (c : nat) : Prop := c = 32 \/ c = 45 \/ c = 95.
Definition styles : list (list nat) := map codes
  ["normal"; "italic"; "oblique"; "slanted"; "thin"; "th"; "hairline"; "light"; "lt"; "regular"; "medium"; "med"; "md"; "bold"; "bd"; "demi"; "extb"; "black"; "blk"; "bk";
   "heavy"; "narrow"; "condensed"; "cond"; "cn"; "cd"; "compressed"; "expanded"; "exp"]%string.
Definition mods : list (list nat) := map codes ["extra"; "ext"; "ex"; "x"; "semi"; "sem"; "sm"; "demi"; "dem"; "ultra"]%string.
(** A text ends in one of the words. *)
Definition ends_in (ws : list (list nat)) (t : list nat) : Prop := exists b w, In w ws /\ t = b ++ w.
(** A text without all words of style at its end, of which there are some. *)
Definition bare (ws : list (list nat)) (l t : list nat) : Prop :=
  exists us, us <> [] /\ Forall (fun u => In u ws) us /\ l = t ++ concat us /\ ~ ends_in ws t.
(** A text with a separator, a modifier and perhaps another separator at its end. *)
Definition modified (t b : list nat) : Prop :=
  exists c m o, sep c /\ In m mods /\ t = b ++ [c] ++ m ++ o /\ (o = [] \/ exists d, sep d /\ o = [d]).
(** A text without one style at its end. *)
Definition style (ws : list (list nat)) (l l' : list nat) : Prop :=
  exists t, bare ws l t /\ (modified t l' \/ ((forall b, ~ modified t b) /\ exists c, sep c /\ t = l' ++ [c])).
(** A text without any number of styles. *)
Inductive plain (ws : list (list nat)) : list nat -> list nat -> Prop :=
| plain_none l : (forall l', ~ style ws l l') -> plain ws l l
| plain_one l l1 l2 : style ws l l1 -> plain ws l1 l2 -> plain ws l l2.
(** Small letters. *)
Definition low (c : nat) : nat := if (65 <=? c) && (c <=? 90) then c + 32 else c.
(** White characters, of which those beyond ASCII are given. *)
Definition blank (wide : nat -> bool) (c : nat) : Prop := (9 <= c <= 13) \/ c = 32 \/ (128 <= c /\ wide c = true).
(** A text that neither starts nor ends with a white character. *)
Definition tight (wide : nat -> bool) (t : list nat) : Prop :=
  (forall c r, t = c :: r -> ~ blank wide c) /\ (forall c r, t = r ++ [c] -> ~ blank wide c).
(** Fonts with names of their own kind. *)
Definition newcm (f : list nat) : Prop := exists r, f = codes "NewCM" ++ r \/ f = codes "NewComputerModern" ++ r.
(** Names that are written in another way. *)
Definition renamed : list (list nat * list nat) :=
  map (fun p => (codes (fst p), codes (snd p)))
    [("Noto Sans Symbols2", "Noto Sans Symbols 2"); ("NewComputerModern", "New Computer Modern"); ("NewComputerModernMono", "New Computer Modern Mono");
     ("NewComputerModernSans", "New Computer Modern Sans"); ("NewComputerModernMath", "New Computer Modern Math");
     ("NewCMUncial", "New Computer Modern Uncial"); ("NewComputerModernUncial", "New Computer Modern Uncial")]%string.
Definition written (b r : list nat) : Prop := In (b, r) renamed \/ ((forall r', ~ In (b, r') renamed) /\ r = b).
(** The family of a name. *)
Definition Family (wide : nat -> bool) (f r : list nat) : Prop :=
  exists w1 w2 dots core base tail,
    f = w1 ++ (dots ++ core) ++ w2 /\ Forall (blank wide) w1 /\ Forall (blank wide) w2 /\ tight wide (dots ++ core)
    /\ Forall (eq 46) dots /\ (forall q, core <> 46 :: q)
    /\ core = base ++ tail
    /\ ((newcm f /\ plain (styles ++ [codes "book"]) (map low core) (map low base)
         /\ exists b k, base = b ++ concat (repeat (codes "10") k) /\ (forall q, b <> q ++ codes "10") /\ written b r)
        \/ (~ newcm f /\ plain styles (map low core) (map low base) /\ written base r)).
