(** Model of folding ranges: crates/tinymist-query/src/folding_range.rs. *)
From Coq Require Import List Arith Bool.
Import ListNotations.

(** The kinds of [LexicalKind] that folding_range.rs:127,135 tells apart. *)
Inductive hkind := KHeading | KComment | KOther.
(** A [LexicalHierarchy] with the lines and characters of its range (what [to_lsp_range] gives at
    folding_range.rs:104); no children and an empty list are the same. *)
Inductive hier := Hier (k : hkind) (name sl sc el ec : nat) (cs : list hier).
(** The start of a hierarchy, folding_range.rs:118-120. *)
Definition start_of (h : hier) : nat * nat := match h with Hier _ _ sl sc _ _ _ => (sl, sc) end.
(** [FoldingRange] (lsp_types), folding_range.rs:108-115; the kind is whether it is a comment. *)
Record fr := mkFr { f_sl : nat; f_sc : option nat; f_el : nat; f_ec : option nat; f_comment : bool; f_name : nat }.
(** The loop of folding_range.rs:103-157 over siblings; [f] handles one with the start of the next. *)
Definition calc_with (f : hier -> option (nat * nat) -> list fr) : list hier -> list fr :=
  fix go l := match l with [] => [] | h :: r => f h (option_map start_of (hd_error r)) ++ go r end.
(** folding_range.rs:103-157, one iteration; [pl] and [ll] are [parent_last_loc] and [last_loc]. *)
Fixpoint calc_node (pl ll : nat * nat) (is_last : bool) (h : hier) (next : option (nat * nat)) : list fr :=
  match h with
  | Hier k name sl sc el ec cs =>
      let not_last := match next with Some _ => true | None => false end in
      let not_final_last := negb is_last || not_last in
      let next_start := match next with Some x => x | None => if not_final_last then pl else ll end in
      let el' := match k with KHeading => Nat.max el (if not_last then fst next_start - 1 else fst next_start) | _ => el end in
      let pl' := if not_last then (el, ec) else pl in
      calc_with (calc_node pl' ll (negb not_final_last)) cs ++
      [mkFr sl (Some sc) el' (Some ec) (match k with KComment => true | _ => false end) name]
  end.
(** folding_range.rs:94-158 [calc_folding_range]. *)
Definition calc (pl ll : nat * nat) (is_last : bool) (l : list hier) : list fr := calc_with (calc_node pl ll is_last) l.
(** [vec[i] = true] (standard library), folding_range.rs:79; [None] is its panic. *)
Fixpoint set_true (v : list bool) (i : nat) : option (list bool) :=
  match v, i with
  | [], _ => None
  | _ :: r, 0 => Some (true :: r)
  | b :: r, S i => option_map (cons b) (set_true r i)
  end.
(** Membership in the set of pairs, folding_range.rs:65. *)
Definition has_pair (ps : list (nat * nat)) (x : nat * nat) : bool := existsb (fun y => (fst x =? fst y) && (snd x =? snd y)) ps.
(** folding_range.rs:64-83, the closure given to [retain_mut], over the list; [None] is a panic. *)
Fixpoint retain (cov : list bool) (pairs : list (nat * nat)) (l : list fr) : option (list fr) :=
  match l with
  | [] => Some []
  | r :: l' =>
      if has_pair pairs (f_sl r, f_el r) then retain cov pairs l'
      else
        match nth_error cov (f_sl r), nth_error cov (f_el r) with
        | Some cs, Some ce =>
            let s := if cs then f_sl r + 1 else f_sl r in
            let e := if ce then f_el r - 1 else f_el r in
            if e <=? s then retain cov pairs l'
            else
              match set_true cov s with
              | None => None
              | Some cov' => option_map (cons (mkFr s (f_sc r) e (f_ec r) (f_comment r) (f_name r))) (retain cov' ((s, e) :: pairs) l')
              end
        | _, _ => None
        end
  end.
(** folding_range.rs:54-85. *)
Definition line_only (l : list fr) : option (list fr) :=
  let l := map (fun r => mkFr (f_sl r) None (f_el r) None (f_comment r) (f_name r)) l in
  let max_line := fold_left Nat.max (map f_el l) 0 in
  option_map (@rev fr) (retain (repeat false (max_line + 1)) [] (rev l)).
(** folding_range.rs:30-90 [FoldingRangeRequest::request], for a document with hierarchy [hs] that ends
    at [last]; [None] is a panic. *)
Definition request (line_folding_only : bool) (last : nat * nat) (hs : list hier) : option (list fr) :=
  let l := calc last last true hs in
  if line_folding_only then line_only l else Some l.
