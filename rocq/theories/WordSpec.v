(** What is expected of the word count (C44). *)
From Coq Require Import List Arith NArith Bool.
From Verif Require Import WordModel.
Import ListNotations.

(** [segs f t gs]: the text cut into maximal pieces of characters of the same kind. *)
Definition segs {K} (f : N -> K) (t : str) (gs : list (K * str)) : Prop :=
  t = concat (map snd gs) /\ Forall (fun g => snd g <> [] /\ Forall (fun c => f c = fst g) (snd g)) gs /\
  forall a x y b, gs = a ++ x :: y :: b -> fst x <> fst y.
(** The kinds of characters. *)
Inductive kind := KSpace | KCjk | KWord.
Definition kind_of (ws cjk : N -> bool) (c : N) : kind := if ws c then KSpace else if cjk c then KCjk else KWord.
Definition is_kind (k k' : kind) : bool := match k, k' with KSpace, KSpace | KCjk, KCjk | KWord, KWord => true | _, _ => false end.
Definition pieces (k : kind) (gs : list (kind * str)) : nat := length (filter (fun g => is_kind k (fst g)) gs).
(** Whether the text begins with a space. *)
Definition begins (k : kind) (gs : list (kind * str)) : nat := match gs with g :: _ => if is_kind k (fst g) then 1 else 0 | [] => 0 end.
Definition number (p : N -> bool) (t : str) : nat := length (filter p t).
(** What a document reads: its texts in document order, and after each frame its hint. *)
Inductive reads_frame : frame -> str -> Prop :=
| RFrame items hint t : reads_items items t -> reads_frame (Frame items hint) (t ++ if (hint =? 0)%N then [] else [hint])
with reads_items : list fitem -> str -> Prop :=
| RNil : reads_items [] []
| RGroup f r t u : reads_frame f t -> reads_items r u -> reads_items (Group f :: r) (t ++ u)
| RText r t u : reads_items r u -> reads_items (Text t :: r) (t ++ u)
| ROther r u : reads_items r u -> reads_items (Other :: r) u.
Inductive reads_html : list hnode -> str -> Prop :=
| HNil : reads_html [] []
| RTag r u : reads_html r u -> reads_html (HTag :: r) u
| RElem cs r t u : reads_html cs t -> reads_html r u -> reads_html (HElem cs :: r) (t ++ u)
| RHText t r u : reads_html r u -> reads_html (HText t :: r) (t ++ u)
| RHFrame f r t u : reads_frame f t -> reads_html r u -> reads_html (HFrame f :: r) (t ++ u).
Inductive reads : doc -> str -> Prop :=
| RPaged ps ts : Forall2 reads_frame ps ts -> reads (Paged ps) (concat ts)
| RHtml cs t : reads_html cs t -> reads (Html cs) t.
