(** What is expected of the description of types (C182). *)
From Coq Require Import List Arith Bool.
From Verif Require Import DescModel.
Import ListNotations.

(** A type has a text of its own. *)
Inductive plain : ty -> text -> Prop :=
| P_word w : w <> [] -> plain (Word w) w
| P_with s w : plain s w -> plain (With s) w.
(** A text is one of the alternatives of a type. *)
Inductive says : ty -> text -> Prop :=
| S_union ts t w : In t ts -> plain t w \/ says t w -> says (Union ts) w
| S_lower lbs ubs t w : In t lbs -> plain t w \/ says t w -> says (Let lbs ubs) w
| S_upper lbs ubs t w : In t ubs -> plain t w \/ says t w -> says (Let lbs ubs) w
| S_with s w : says s w -> says (With s) w.
(** The functions among the alternatives of a type, in order. *)
Inductive functions : ty -> list ty -> Prop :=
| F_word w : functions (Word w) []
| F_silent : functions Silent []
| F_func pos named rest body : functions (Func pos named rest body) [Func pos named rest body]
| F_union ts fss : Forall2 functions ts fss -> functions (Union ts) (concat fss)
| F_let lbs ubs fss : Forall2 functions (lbs ++ ubs) fss -> functions (Let lbs ubs) (concat fss)
| F_with s fs : functions s fs -> functions (With s) fs.
(** The order of texts by their first difference. *)
Inductive before : text -> text -> Prop :=
| B_nil x r : before [] (x :: r)
| B_less x y a b : x < y -> before (x :: a) (y :: b)
| B_same x a b : before a b -> before (x :: a) (x :: b).
(** Each text is before the next ones. *)
Inductive rising : list text -> Prop :=
| R_nil : rising []
| R_cons w l : Forall (before w) l -> rising l -> rising (w :: l).
(** [described t d]: the description of a type, if it has one: its own text, or its alternatives in order with bars between, where the first function counts as one. *)
Inductive described : ty -> option text -> Prop :=
| D_plain t w : plain t w -> described t (Some w)
| D_alts t ls cs : (forall w, ~ plain t w) -> called t cs -> rising ls -> (forall w, In w ls <-> says t w \/ In w cs) ->
    described t (match ls with [] => None | _ => Some (join [32; 124; 32] ls) end)
with called : ty -> list text -> Prop :=
| C_none t : functions t [] -> called t []
| C_first t pos named rest body fs ps ns rs b : functions t (Func pos named rest body :: fs) ->
    all_parts pos ps -> named_parts named ns -> rest_part rest rs -> body_part body b ->
    called t [[40] ++ join [44; 32] (ps ++ ns ++ rs) ++ [41; 32; 61; 62; 32] ++ b]
with part : ty -> text -> Prop :=
| Pt_some t w : described t (Some w) -> part t w
| Pt_none t : described t None -> part t [97; 110; 121]
with all_parts : list ty -> list text -> Prop :=
| A_nil : all_parts [] []
| A_cons t w ts ws : part t w -> all_parts ts ws -> all_parts (t :: ts) (w :: ws)
with named_parts : list (text * ty) -> list text -> Prop :=
| N_nil : named_parts [] []
| N_cons n t w ts ws : part t w -> named_parts ts ws -> named_parts ((n, t) :: ts) ((n ++ [58; 32] ++ w) :: ws)
with rest_part : option ty -> list text -> Prop :=
| Re_none : rest_part None []
| Re_some t w : part t w -> rest_part (Some t) [[46; 46; 58; 32] ++ w]
with body_part : option ty -> text -> Prop :=
| Bo_none : body_part None [97; 110; 121]
| Bo_some t w : part t w -> body_part (Some t) w.
