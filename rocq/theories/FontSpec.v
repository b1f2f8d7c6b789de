(** What the fonts of a world are, without the searcher and the cells of the model. *)
From Coq Require Import List Arith.
From Verif Require Import FontModel.
Import ListNotations.

Section S.
Variables (faces : bytes -> list nat) (count : bytes -> nat) (info_of : bytes -> nat -> option info) (valid : bytes -> nat -> bool).
(** A font that is listed: what is known about it, where it is loaded from, and its index there. *)
Definition listed := (info * source * nat)%type.
(** The fonts of contents. *)
Definition in_file (d : disk) (p : path) : list listed :=
  match d p with
  | Some b => flat_map (fun i => match info_of b i with Some x => [(x, File p, i)] | None => [] end) (faces b)
  | None => []
  end.
Definition in_buffer (b : bytes) : list listed :=
  flat_map (fun i => match info_of b i with Some x => [(x, Buffer b, i)] | None => [] end) (seq 0 (count b)).
(** The fonts that options ask for: of the user, of the system, and embedded. *)
Definition expected (d : disk) (o : opts) : list listed :=
  flat_map (in_file d) (flat_map (fun p => match snd p with Some files => files | None => [fst p] end) (o_paths o)) ++
  flat_map (in_file d) (match o_system o with Some files => files | None => [] end) ++
  flat_map in_buffer (o_embedded o).
(** The paths that are shown. *)
Definition shown (cwd : option (list nat)) (p : path) : path :=
  match p, cwd with Rel l, Some c => Abs (c ++ l) | _, _ => p end.
(** A slot that is to load a font, with its description. *)
Definition loads (h : heap) (s : slot) (src : source) (i : nat) : Prop :=
  nth_error h (s_cell s) = Some (mkCell (Some (mkLoader (Some src) i)) None) /\
  s_desc s = Some match src with Buffer _ => Memory | File p => Fs p end.
(** What a source has now. *)
Definition now (d : disk) (src : source) : option bytes := match src with Buffer b => Some b | File p => d p end.
Definition made (b : option bytes) (i : nat) : option font :=
  match b with Some b => if valid b i then Some (mkFont b i) else None | None => None end.
(** Cells of slots: to be loaded or loaded. *)
Definition sound (h : heap) : Prop :=
  Forall (fun c => (exists src i, c = mkCell (Some (mkLoader (Some src) i)) None) \/ exists v, c = mkCell None (Some v)) h.
(** Resolvers whose slots are there. *)
Definition within (h : heap) (r : resolver) : Prop := Forall (fun s => s_cell s < length h) (r_slots r).
(** Requests that are for a font there is. *)
Inductive proper : nat -> list event -> Prop :=
| P_nil : forall n, proper n []
| P_get : forall n r i es, Forall (fun s => s_cell s < n) (r_slots r) -> i < length (r_slots r) -> proper n es -> proper n (Get r i :: es)
| P_change : forall n d es, proper n es -> proper n (Change d :: es)
| P_make : forall n src i dsc es, proper (S n) es -> proper n (Make src i dsc :: es).
End S.
