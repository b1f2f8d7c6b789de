(** Model of the span interner of the preview: crates/typst-preview/src/debug_loc.rs. *)
From Coq Require Import List NArith Bool.
From Verif Require Import DigModel.
Import ListNotations.
Open Scope N_scope.

(** debug_loc.rs:13-16 [InternId]: the lifetime and the index, both [u32]. *)
Record iid := mkId { i_life : N; i_idx : N }.
(** The range of [u32], debug_loc.rs:14. *)
Definition two32 : N := 4294967296.
(** debug_loc.rs:19-24 [InternId::new]: both numbers are cut to 32 bits. *)
Definition new_id (life idx : N) : iid := mkId (life mod two32) (idx mod two32).
(** debug_loc.rs:26-28 [to_u64]. *)
Definition id_to_u64 (i : iid) : N := N.lor (N.shiftl (i_life i) 32) (i_idx i).
(** debug_loc.rs:30-35 [from_u64]. *)
Definition id_from_u64 (n : N) : iid := mkId (N.shiftr n 32 mod two32) (N.land n 4294967295).
(** debug_loc.rs:37-39 [to_hex]. *)
Definition to_hex (i : iid) : list chr := print_num 16 (id_to_u64 i).
(** debug_loc.rs:41-43 [from_hex]; [None] is the panic of [unwrap]. *)
Definition from_hex (s : list chr) : option iid := option_map id_from_u64 (parse_num 16 max64 s).

(** A source span (external, debug_loc.rs:4). *)
Definition span := N.
(** debug_loc.rs:88-91 [SpanInternerImpl]: the set in the order of its indices. *)
Record interner := mkInt { n_life : N; n_set : list (N * span) }.
(** debug_loc.rs:99 [GARAGE_COLLECT_THRESHOLD]. *)
Definition threshold : N := 30.
(** debug_loc.rs:102-107 [new]. *)
Definition interner0 : interner := mkInt 1 [].
(** debug_loc.rs:109-113 [reset]; [retain] keeps the order. *)
Definition reset (s : interner) : interner :=
  let life := n_life s + 1 in mkInt life (filter (fun x => life - fst x <? threshold) (n_set s)).
(** debug_loc.rs:7-10 [InternQuery]. *)
Inductive query := Found (s : option span) | UseAfterFree.
(** debug_loc.rs:119-130 [span]. *)
Definition lookup (s : interner) (i : iid) : query :=
  if i_life i + threshold <=? n_life s then UseAfterFree
  else Found (option_map snd (nth_error (n_set s) (N.to_nat (i_idx i)))).
(** [IndexSet::insert_full] (external), debug_loc.rs:134: the index of an equal item, or
    the item is added at the end. *)
Fixpoint index_of (x : N * span) (l : list (N * span)) : option nat :=
  match l with
  | [] => None
  | y :: r => if (fst y =? fst x) && (snd y =? snd x) then Some O else option_map S (index_of x r)
  end.
(** debug_loc.rs:132-138 [intern]. *)
Definition intern (s : interner) (sp : span) : interner * iid :=
  match index_of (n_life s, sp) (n_set s) with
  | Some k => (s, new_id (n_life s) (N.of_nat k))
  | None => (mkInt (n_life s) (n_set s ++ [(n_life s, sp)]), new_id (n_life s) (N.of_nat (length (n_set s))))
  end.
(** debug_loc.rs:115-117 [span_by_str], on a string of the page
    (crates/typst-preview/src/actor/editor.rs:268); [None] is a panic. *)
Definition span_by_str (s : interner) (str : list chr) : option query := option_map (lookup s) (from_hex str).
(** The calls that change the interner (crates/typst-preview/src/actor/render.rs:365-372,
    crates/typst-preview/src/outline.rs:170). *)
Inductive icall := Reset_ | Intern (sp : span).
(** See [icall]; debug_loc.rs:109,132. *)
Definition istep (s : interner) (c : icall) : interner :=
  match c with Reset_ => reset s | Intern sp => fst (intern s sp) end.
(** A history of calls; driver of [istep], debug_loc.rs:109,132. *)
Definition irun (s : interner) (cs : list icall) : interner := fold_left istep cs s.
