(** Origins of pages, as browsers send them. *)
From Coq Require Import List NArith Bool.
From Verif Require Import DigModel PathModel OrigModel.
Import ListNotations.
Open Scope N_scope.

Record origin := mkO { o_scheme : list chr; o_host : list chr; o_port : option N }.
(** scheme "://" host [":" port] *)
Definition print_origin (o : origin) : list chr :=
  o_scheme o ++ [58; 47; 47] ++ o_host o ++ match o_port o with Some n => 58 :: print_num 10 n | None => [] end.
Definition default_port (s : list chr) : option N := if text_eqb s s_http then Some 80 else if text_eqb s s_https then Some 443 else None.
(** The port without the default of the scheme. *)
Definition strip (o : origin) : option N :=
  match o_port o, default_port (o_scheme o) with Some n, Some d => if n =? d then None else Some n | p, _ => p end.
(** Browsers leave the default out. *)
Definition canonical (o : origin) : Prop := strip o = o_port o.
(** What is assumed of the parser of URLs: it reads the parts of origins in [good]. *)
Definition reads (P : list chr -> option url) (good : origin -> Prop) : Prop :=
  forall o, good o -> exists path, (path = [47] \/ path = []) /\ P (print_origin o) = Some (mkUrl (o_scheme o) (Some (o_host o)) (strip o) path).
(** The server runs at [addr], whose host is [h]. *)
Definition runs (P : list chr -> option url) (addr h : list chr) : Prop := exists u, P (http_pre ++ addr) = Some u /\ u_host u = Some h.
Definition own (h : list chr) (port : N) : origin := mkO s_http h (Some port).
Definition gitpod_origin (port : N) (x : list chr * list chr) : origin := mkO s_https (print_num 10 port ++ 45 :: fst x ++ 46 :: snd x) None.
(** Who may connect to a server at host [h] and port [port]. *)
Definition allowed (g : option (list chr * list chr)) (h : list chr) (port : N) (o : origin) : Prop :=
  o = own h port \/ o_scheme o = s_vscode \/ (o_scheme o = s_http /\ (o_host o = h_local \/ o_host o = h_loop)) \/
  exists x, g = Some x /\ o = gitpod_origin port x.
