(** Model of how types are described: crates/tinymist-analysis/src/ty/describe.rs. *)
From Coq Require Import List Arith Bool.
Import ListNotations.

(** Texts (describe.rs:55-56) by the codes of their characters. *)
Definition text := list nat.
(** Types as describe.rs:144-225 tells them apart: those with a text of their own (describe.rs:157-221, with the texts in question: those of the mode of the worker, describe.rs:52-54, and of values through [term_value]), those that say nothing (describe.rs:146, 177), unions (describe.rs:147-149), bounds (describe.rs:150-153), functions (describe.rs:154-156) with their parameters and result (ty/def.rs:948-984), and functions with arguments (describe.rs:167-169). *)
Inductive ty := Word (w : text) | Silent | Union (ts : list ty) | Let (lbs ubs : list ty) | With (sig : ty)
| Func (pos : list ty) (named : list (text * ty)) (rest body : option ty).
(** Equality of types, for the [described] map of describe.rs:55, whose keys are hashes (describe.rs:64; collisions are left out). *)
Fixpoint ty_dec (a b : ty) {struct a} : {a = b} + {a <> b}.
Proof.
  pose proof (list_eq_dec Nat.eq_dec) as T.
  decide equality; try (apply (list_eq_dec ty_dec)); try apply T.
  - destruct body as [x|], body0 as [y|]; try (right; discriminate); [|now left]. destruct (ty_dec x y) as [->|N]; [now left|right; intros E; injection E as E; exact (N E)].
  - destruct rest as [x|], rest0 as [y|]; try (right; discriminate); [|now left]. destruct (ty_dec x y) as [->|N]; [now left|right; intros E; injection E as E; exact (N E)].
  - revert named0. induction named as [|[n x] r IH]; intros [|[m y] s]; try (right; discriminate); [now left|].
    destruct (T n m) as [->|N]; [|right; intros E; injection E as E _ _; exact (N E)].
    destruct (ty_dec x y) as [->|N]; [|right; intros E; injection E as E _; exact (N E)].
    destruct (IH s) as [->|N]; [now left|right; intros E; injection E as E; exact (N E)].
Defined.
(** The order of strings, for [sort] at describe.rs:128. *)
Fixpoint less (a b : text) : bool :=
  match a, b with _, [] => false | [], _ :: _ => true | x :: a', y :: b' => (x <? y) || ((x =? y) && less a' b') end.
(** One text into sorted ones, unless it is there: for describe.rs:128-129. *)
Fixpoint put (w : text) (l : list text) : list text :=
  match l with [] => [w] | y :: r => if less w y then w :: l else if less y w then y :: put w r else l end.
(** [sort] and [dedup], describe.rs:128-129. *)
Definition ascending (l : list text) : list text := fold_right put [] l.
(** [join], describe.rs:130 and the commas of describe.rs:86-107. *)
Fixpoint join (sep : text) (l : list text) : text :=
  match l with [] => [] | [w] => w | w :: r => w ++ sep ++ join sep r end.
(** The texts of describe.rs:72, 84-118 and 130: " | ", ", ", "(", ") => ", ": ", "..: ", "any" and "$self". *)
Definition bar : text := [32; 124; 32].
(** See [bar] (describe.rs:88). *)
Definition comma : text := [44; 32].
(** See [bar] (describe.rs:84). *)
Definition open_ : text := [40].
(** See [bar] (describe.rs:111). *)
Definition arrow : text := [41; 32; 61; 62; 32].
(** See [bar] (describe.rs:101). *)
Definition colon : text := [58; 32].
(** See [bar] (describe.rs:108). *)
Definition dots : text := [46; 46; 58; 32].
(** See [bar] (describe.rs:92). *)
Definition any : text := [97; 110; 121].
(** See [bar] (describe.rs:72). *)
Definition self : text := [36; 115; 101; 108; 102].
(** describe.rs:135-225 [describe_iter] and [describe]: the texts collected so far (a set), the functions so far, and the text of the type itself, empty if it has none. *)
Fixpoint describe (t : ty) (rs : list text) (fs : list ty) : list text * list ty * text :=
  let iter := fix iter ts rs fs :=
    match ts with
    | [] => (rs, fs)
    | x :: r => let '(rs1, fs1, w) := describe x rs fs in iter r (match w with [] => rs1 | _ => w :: rs1 end) fs1
    end in
  match t with
  | Word w => (rs, fs, w)
  | Silent => (rs, fs, [])
  | Union ts => let '(rs1, fs1) := iter ts rs fs in (rs1, fs1, [])
  | Let lbs ubs => let '(rs1, fs1) := iter lbs rs fs in let '(rs2, fs2) := iter ubs rs1 fs1 in (rs2, fs2, [])
  | With s => describe s rs fs
  | Func _ _ _ _ => (rs, fs ++ [t], [])
  end.
(** [described], describe.rs:55: the latest entry of a type counts, as [insert] replaces. *)
Definition cache := list (ty * text).
(** [described.get], describe.rs:64. *)
Fixpoint lookup (t : ty) (c : cache) : option text :=
  match c with [] => None | (u, w) :: r => if ty_dec u t then Some w else lookup t r end.

Section Root.
(** [describe_root] of a part (describe.rs:92-118). *)
Variable root_ : cache -> ty -> option text * cache.
(** [unwrap_or("any")], describe.rs:92,102,109,117. *)
Definition or_any (c : cache) (t : ty) : text * cache := let '(o, c1) := root_ c t in (match o with Some w => w | None => any end, c1).
(** describe.rs:86-93. *)
Fixpoint positional (c : cache) (ts : list ty) : list text * cache :=
  match ts with [] => ([], c) | t :: r => let '(w, c1) := or_any c t in let '(ws, c2) := positional c1 r in (w :: ws, c2) end.
(** describe.rs:94-103. *)
Fixpoint by_name (c : cache) (ts : list (text * ty)) : list text * cache :=
  match ts with [] => ([], c) | (n, t) :: r => let '(w, c1) := or_any c t in let '(ws, c2) := by_name c1 r in ((n ++ colon ++ w) :: ws, c2) end.
(** describe.rs:81-120: the text of a function. *)
Definition func_text (c : cache) (pos : list ty) (named : list (text * ty)) (rest body : option ty) : text * cache :=
  let '(ps, c1) := positional c pos in
  let '(ns, c2) := by_name c1 named in
  let '(rs, c3) := match rest with Some t => let '(w, c3) := or_any c2 t in ([dots ++ w], c3) | None => ([], c2) end in
  let '(b, c4) := match body with Some t => or_any c3 t | None => (any, c3) end in
  (open_ ++ join comma (ps ++ ns ++ rs) ++ arrow ++ b, c4).
End Root.
(** describe.rs:61-133 [describe_root]; the number bounds the depth of the recursion, which ends as types are finite. *)
Fixpoint describe_root (fuel : nat) (c : cache) (t : ty) : option text * cache :=
  match fuel with
  | O => (None, c)
  | S n =>
      match lookup t c with
      | Some w => (Some w, c)
      | None =>
          let '(rs, fs, w) := describe t [] [] in
          match w with
          | _ :: _ => (Some w, c)
          | [] =>
              let c1 := (t, self) :: c in
              let '(rs', c2) := match fs with
                | Func pos named rest body :: _ => let '(x, c2) := func_text (describe_root n) c1 pos named rest body in (rs ++ [x], c2)
                | _ => (rs, c1)
                end in
              match ascending rs' with
              | [] => (None, (t, any) :: c2)
              | ls => (Some (join bar ls), (t, join bar ls) :: c2)
              end
          end
      end
  end.
(** The number of constructors of a type, for the bound of [describe_root] (describe.rs:61). *)
Fixpoint size (t : ty) : nat :=
  let sum := fix sum ts := match ts with [] => 0 | x :: r => size x + sum r end in
  match t with
  | Word _ | Silent => 1
  | Union ts => S (sum ts)
  | Let a b => S (sum a + sum b)
  | With s => S (size s)
  | Func pos named rest body => S (sum pos + (fix go l := match l with [] => 0 | (_, x) :: r => size x + go r end) named
      + match rest with Some x => size x | None => 0 end + match body with Some x => size x | None => 0 end)
  end.
(** describe.rs:11-35 [repr], [value_repr] and [describe] of types, which differ in the texts of [Word]. *)
Definition repr (t : ty) : option text := fst (describe_root (S (size t)) [] t).
