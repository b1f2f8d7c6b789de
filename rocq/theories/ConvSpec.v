(** What the editor should show of a diagnostic of the compiler. *)
From Coq Require Import String.
From Coq Require Import List NArith Bool.
From Verif Require Import LocModel ConvModel.
Import ListNotations.

(** The text is part of the other. *)
Definition within (p s : text) : Prop := exists a b, s = a ++ p ++ b.
(** The place of a diagnostic: its first span in a file; the main file if there is none. *)
Definition located (w : world) (d : diagnostic) (i : nat) (s : span) : Prop :=
  let spans := d_span d :: map fst (d_trace d) in
  (exists a b, spans = a ++ s :: b /\ fst s = Some i /\ forall x, In x a -> fst x = None) \/
  ((forall x, In x spans -> fst x = None) /\ i = main w /\ s = (None, 0)).
(** A message about something removed in a version. *)
Definition outdated (d : diagnostic) : Prop :=
  within (lit "unknown variable: style") (d_msg d) \/ within (lit "unexpected argument: fill") (d_msg d) \/
  within (lit "type state has no method `display`") (d_msg d) \/ within (lit "only element functions can be used as selectors") (d_msg d).
(** A file out of the root was asked for. *)
Definition outside (d : diagnostic) : Prop :=
  within (lit "failed to load file (access denied)") (d_msg d) /\
  exists h, In h (d_hints d) /\ within (lit "cannot read file outside of project root") h.
(** The hints shown. *)
Definition hints_shown (d : diagnostic) (hs : list text) : Prop :=
  outside d /\ hs = [lit "Cannot read file outside of project root."] \/
  ~ outside d /\ outdated d /\ hs = d_hints d ++ [deprecation_hint] \/
  ~ outside d /\ ~ outdated d /\ hs = d_hints d.
(** A point of the trace that can be shown. *)
Definition point (w : world) (t : span * text) (r : related) : Prop :=
  exists i u b, fst (fst t) = Some i /\ uri w i = Some u /\ readable w i = true /\ find_span w i (fst t) = Some b /\ r = (u, lines w i b, snd t).
(** What is chosen of a list, in order. *)
Inductive picks {A B} (R : A -> B -> Prop) : list A -> list B -> Prop :=
| picks_nil : picks R [] []
| picks_yes a b l m : R a b -> picks R l m -> picks R (a :: l) (b :: m)
| picks_no a l m : (forall b, ~ R a b) -> picks R l m -> picks R (a :: l) m.
(** A diagnostic is shown in a file. *)
Definition shows (w : world) (d : diagnostic) (u : nat) (x : shown) : Prop :=
  exists i s hs, located w d i s /\ uri w i = Some u /\ readable w i = true /\ hints_shown d hs /\
    s_sev x = d_sev d /\ s_msg x = d_msg d ++ concat (map (fun h => 10%N :: lit "Hint: " ++ h) hs) /\
    (forall b, find_span w i s = Some b -> s_range x = lines w i b) /\
    (find_span w i s = None -> s_range x = ((0, 0), (0, 0))) /\
    (d_trace d = [] -> s_related x = None) /\
    (d_trace d <> [] -> exists rs, s_related x = Some rs /\ picks (point w) (d_trace d) rs).
(** The diagnostics of a file in a map. *)
Definition at_file (u : nat) (m : dmap) (l : list shown) : Prop :=
  (l = [] /\ ~ In u (map fst m)) \/ (l <> [] /\ In (u, l) m).
(** The lints of the files of the document that are not in packages. *)
Definition lints (w : world) : list diagnostic :=
  flat_map (fun i => if is_package w i then [] else if readable w i then lint w i else []) (depended w).
