(** What is expected of the choice of the main file (C85, C86, C87). *)
From Coq Require Import List Bool.
From Verif Require Import PathModel EntryModel FocusModel.
Import ListNotations.

(** The user asks for the file. *)
Definition is_focus (e : event) : Prop := match e with Focus _ => True | _ => False end.
(** The client works on the file. *)
Definition activity (e : event) : option path := match e with Hover p _ | Folding p | Tokens p => Some p | _ => None end.
Definition opened (e : event) : option path := match e with Open p => Some p | _ => None end.
(** A request that tells a position. *)
Definition position (e : event) : option (path * pos) := match e with Hover p x | Complete p x | Signature p x => Some (p, x) | _ => None end.
(** The paths of an event are absolute. *)
Definition absolute (e : event) : Prop :=
  match e with
  | Open p | Hover p _ | Folding p | Tokens p => is_abs p = true
  | Pin (Some p) | Focus (Some p) => is_abs p = true
  | _ => True
  end.
(** A preview takes the primary project to show a file of its own. *)
Definition takes (e : event) : Prop := match e with Preview (Some _) _ true => True | _ => False end.
Definition is_pin (e : event) : Prop := match e with Pin _ => True | _ => False end.
Definition is_configure (e : event) : Prop := match e with Configure _ _ _ => True | _ => False end.
(** The default entry stays as it is, and the projects are not made anew. *)
Definition is_config_with (fonts : bool) (r : resolver) (e : event) : Prop := match e with Configure r' f _ => f = fonts /\ r' = r | _ => False end.
