(** What plain documentation, links and summaries of fonts are (C186). *)
From Coq Require Import String Ascii List Arith NArith Bool.
From Verif Require Import UpModel.
Import ListNotations.

(** The characters of a string. *)
Definition codes (s : string) : list nat := List.map nat_of_ascii (list_ascii_of_string s).
(** [replaced pat rep l o]: each occurrence from the left is replaced. *)
Inductive replaced (pat rep : list nat) : list nat -> list nat -> Prop :=
| Rep_nil : replaced pat rep [] []
| Rep_here r o : replaced pat rep r o -> replaced pat rep (pat ++ r) (rep ++ o)
| Rep_not c r o : (forall t, c :: r <> pat ++ t) -> replaced pat rep r o -> replaced pat rep (c :: r) (c :: o).
(** [bare raw s]: raw text without the braces or brackets around it. *)
Inductive bare : list nat -> list nat -> Prop :=
| Bare_braces s : bare (123 :: s ++ [125]) s
| Bare_brackets s : bare (91 :: s ++ [93]) s
| Bare_none s : (forall t, s <> 123 :: t ++ [125]) -> (forall t, s <> 91 :: t ++ [93]) -> bare s s.
(** [reads T link l o]: a text and what it is shown as, where T changes the destinations of links, and link is whether a bracket is open.  Raw texts (between 96), brackets (91, 93), destinations (between 40 and 41) and references (between brackets again) may lack their end in the end. *)
Inductive reads (T : list nat -> list nat) : bool -> list nat -> list nat -> Prop :=
| R_end link : reads T link [] []
| R_char link c r o : c <> 96 -> c <> 91 -> (c = 93 -> link = false) -> reads T link r o -> reads T link (c :: r) (c :: o)
| R_raw link raw s r o : ~ In 96 raw -> bare raw s -> reads T link r o -> reads T link ([96] ++ raw ++ [96] ++ r) ([96] ++ s ++ [96] ++ o)
| R_raw_end link raw s : ~ In 96 raw -> bare raw s -> reads T link ([96] ++ raw) ([96] ++ s ++ [96])
| R_open link r o : reads T true r o -> reads T link (91 :: r) (91 :: o)
| R_dest d r o : ~ In 41 d -> reads T false r o -> reads T true ([93; 40] ++ d ++ [41] ++ r) ([93; 40] ++ T d ++ [41] ++ o)
| R_dest_end d : ~ In 41 d -> reads T true ([93; 40] ++ d) ([93; 40] ++ T d ++ [41])
| R_ref d r o : ~ In 93 d -> reads T false r o -> reads T true ([93; 91] ++ d ++ [93] ++ r) ([93; 91] ++ d ++ [93] ++ o)
| R_ref_end d : ~ In 93 d -> reads T true ([93; 91] ++ d) ([93; 91] ++ d)
| R_close r o : (forall t, r <> 40 :: t) -> (forall t, r <> 91 :: t) -> reads T false r o -> reads T true (93 :: r) (93 :: o).
(** The destinations known by a name of their own. *)
Inductive known (base : list nat) : list nat -> list nat -> Prop :=
| K_tutorial : known base (codes "$tutorial") (base ++ codes "tutorial")
| K_reference : known base (codes "$reference") (base ++ codes "reference")
| K_category : known base (codes "$category") (base ++ codes "reference")
| K_syntax : known base (codes "$syntax") (base ++ codes "reference/syntax")
| K_styling : known base (codes "$styling") (base ++ codes "reference/styling")
| K_scripting : known base (codes "$scripting") (base ++ codes "reference/scripting")
| K_context : known base (codes "$context") (base ++ codes "reference/context")
| K_guides : known base (codes "$guides") (base ++ codes "guides")
| K_changelog : known base (codes "$changelog") (base ++ codes "changelog")
| K_community : known base (codes "$community") (base ++ codes "community")
| K_universe : known base (codes "$universe") (codes "https://typst.app/universe").
(** A link that is a fragment or an address already. *)
Definition absolute (l : list nat) : Prop := exists t, l = codes "#" ++ t \/ l = codes "http" ++ t.
(** Whether an address has its end: a slash, or a fragment or query somewhere. *)
Definition ended (r : list nat) : Prop := In 35 r \/ In 63 r \/ exists t, r = t ++ [47].
(** [leads def base link r]: a link and where it leads, by the names of the library. *)
Inductive leads (def : list nat -> list nat -> option (list nat)) (base : list nat) : list nat -> list nat -> Prop :=
| L_absolute l : absolute l -> leads def base l l
| L_route head k tail route full r : ~ absolute (head ++ repeat 47 k ++ tail) -> ~ In 47 head -> (forall t, tail <> 47 :: t) -> (k = 0 -> tail = []) ->
    known base head route \/ ((forall x, ~ known base head x) /\ def head base = Some route) ->
    full = route ++ (match tail with [] => [] | _ => 47 :: tail end) ->
    (ended full /\ r = full) \/ (~ ended full /\ r = full ++ [47]) ->
    leads def base (head ++ repeat 47 k ++ tail) r.
(** The order of variants: by style, then weight, then stretch. *)
Definition rank (s : style) : nat := match s with Normal => 0 | Italic => 1 | Oblique => 2 end.
Definition below (a b : variant) : Prop :=
  rank (v_style a) < rank (v_style b)
  \/ (v_style a = v_style b /\ ((v_weight a < v_weight b)%N \/ (v_weight a = v_weight b /\ v_stretch a <= v_stretch b))).
