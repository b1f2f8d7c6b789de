(** What a call does with its arguments, in Typst: this is the evaluation of
    a closure call of the compiler, which is not part of the repository. *)
From Coq Require Import List Arith Bool.
From Verif Require Import CallModel.
Import ListNotations.

(** The number of positional parameters. *)
Definition npos (ps : list cparam) : nat :=
  length (filter (fun p => match p with PPos _ => true | _ => false end) ps).

(** The parameters are bound in order.  A positional one takes the first of
    the positional arguments that are left, a sink as many as there are more
    arguments than positional parameters, a named one none of them. *)
Fixpoint bind {A} (sink : nat) (ps : list cparam) (args : list A) : list (A * (pkind * nat)) :=
  match ps with
  | [] => []
  | PPos x :: ps' =>
      match args with
      | [] => bind sink ps' []
      | a :: args' => (a, (Positional, x)) :: bind sink ps' args'
      end
  | PNamed _ :: ps' => bind sink ps' args
  | PSink x :: ps' => map (fun a => (a, (Rest, x))) (firstn sink args) ++ bind sink ps' (skipn sink args)
  end.

(** Of [n] positional arguments the [i]th is passed to the parameter. *)
Definition passed (ps : list cparam) (n i : nat) (k : pkind) (x : nat) : Prop :=
  In (i, (k, x)) (bind (n - npos ps) ps (seq 0 n)).

(** The function below all [with] calls. *)
Fixpoint base (f : func) : list pty := match f with Base ps => ps | With g _ => base g end.

(** The number of positional arguments among some. *)
Fixpoint npargs (l : list (option nat)) : nat :=
  match l with [] => 0 | None :: l' => S (npargs l') | Some _ :: l' => npargs l' end.

(** The number of positional arguments that [with] calls have put before
    those of the call. *)
Fixpoint bound (f : func) : nat := match f with Base _ => 0 | With g args => bound g + npargs args end.

(** The number of positional arguments that the children of an argument list
    give; [sz] is how many the spread that is the [o]th child gives. *)
Fixpoint given (sz : nat -> nat) (o : nat) (l : list child) : nat :=
  match l with
  | [] => 0
  | c :: l' => match c with KPos _ => 1 | KSpread => sz o | _ => 0 end + given sz (S o) l'
  end.

(** The [i]th child of an argument list is a positional argument that the
    call of [f], a closure with parameters [ps] perhaps with arguments
    applied, passes to the parameter. *)
Definition goes (ps : list cparam) (f : func) (sz : nat -> nat) (l : list child) (i : nat) (k : pkind) (x : nat) : Prop :=
  (exists b, nth_error l i = Some (KPos b)) /\
  passed ps (bound f + given sz 0 l) (bound f + given sz 0 (firstn i l)) k x.

(** The sink, if there is one, comes after the positional parameters, and
    there is no second one. *)
Definition tidy (ps : list cparam) : Prop :=
  forall a b x, ps = a ++ PSink x :: b -> forall p, In p b -> exists y, p = PNamed y.

(** The child is outside the parentheses: before the opening one or after the
    closing one. *)
Definition outside (l : list child) (i : nat) : Prop := In KOpen (firstn i l) -> In KClose (firstn i l).

(** A content block after the parentheses. *)
Definition trailing (l : list child) (i : nat) : Prop := nth_error l i = Some (KPos true) /\ outside l i.

(** Argument lists as the parser makes them: at most one pair of parentheses,
    in this order. *)
Definition paren_ok (l : list child) : Prop :=
  exists a b c, l = a ++ b ++ c /\
    (a = [] /\ b = [] \/ a = [KOpen] /\ (b = [] /\ c = [] \/ exists b', b = b' ++ [KClose] /\ ~ In KOpen b' /\ ~ In KClose b')
     \/ a = [KOpen] /\ c = [] /\ ~ In KOpen b /\ ~ In KClose b) /\
    ~ In KOpen c /\ ~ In KClose c.

(** The name of a parameter of a closure. *)
Definition cname (p : cparam) : nat := match p with PPos x | PNamed x | PSink x => x end.

(** The [i]th child is passed to a positional parameter and is not a content
    block after the parentheses. *)
Definition plain (ps : list cparam) (f : func) (sz : nat -> nat) (l : list child) (i x : nat) : Prop :=
  goes ps f sz l i Positional x /\ ~ trailing l i.

(** Only positional arguments have been applied by [with]. *)
Fixpoint only_pos (f : func) : Prop :=
  match f with Base _ => True | With g args => only_pos g /\ forall a, In a args -> a = None end.

(** The entry of a child in the map of arguments. *)
Definition mapped (m : list (option pinfo)) (i : nat) (k : pkind) (x : nat) : Prop :=
  exists o, nth_error m i = Some (Some o) /\ i_kind o = k /\ i_name o = x.

(** The names of the positional parameters, of the named ones, and of the
    sink. *)
Definition posn (ps : list cparam) : list nat := flat_map (fun p => match p with PPos x => [x] | _ => [] end) ps.
Definition namedn (ps : list cparam) : list nat := flat_map (fun p => match p with PNamed x => [x] | _ => [] end) ps.
Fixpoint sinkn (ps : list cparam) : option nat :=
  match ps with [] => None | PSink x :: _ => Some x | _ :: ps' => sinkn ps' end.

(** The [i]th of some positional things, the last being repeated for ever if
    there is one. *)
Definition or_rest (l : list nat) (r : option nat) (i x : nat) : Prop :=
  nth_error l i = Some x \/ length l <= i /\ r = Some x.
