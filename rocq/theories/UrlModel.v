(** Model of addresses of documents: crates/tinymist-query/src/lsp_typst_boundary.rs:15-77 (the file is meant by bare line numbers below), on
    Unix.  Of the crate [url] there is what is needed: [Url::parse] of addresses that begin with [untitled:], [from_file_path] and
    [to_file_path]. *)
From Coq Require Import String Ascii List Arith Bool.
Import ListNotations.

(** Texts as bytes: lsp_typst_boundary.rs:63-73. *)
Definition bytes := list nat.
(** A literal, lsp_typst_boundary.rs:15-16. *)
Fixpoint lit (s : string) : bytes := match s with EmptyString => [] | String c r => nat_of_ascii c :: lit r end.
(** Equality, lsp_typst_boundary.rs:27. *)
Fixpoint same (a b : bytes) : bool :=
  match a, b with [], [] => true | x :: a', y :: b' => (x =? y) && same a' b' | _, _ => false end.
(** A path by its names, lsp_typst_boundary.rs:24: from the root or not. *)
Inductive path := Abs (names : list bytes) | Rel (names : list bytes).
(** [Url], lsp_typst_boundary.rs:19,45: the path is opaque if it cannot be a base. *)
Record url := mkUrl { u_scheme : bytes; u_host : option bytes; u_opaque : bool; u_path : bytes }.

(** ** Percent encoding *)

(** A hexadecimal digit (percent-encoding crate), lsp_typst_boundary.rs:70. *)
Definition digit (n : nat) : nat := if n <? 10 then 48 + n else 55 + n.
(** The value of a digit (percent-encoding crate), lsp_typst_boundary.rs:70. *)
Definition undigit (c : nat) : option nat :=
  if (48 <=? c) && (c <=? 57) then Some (c - 48)
  else if (65 <=? c) && (c <=? 70) then Some (c - 55)
  else if (97 <=? c) && (c <=? 102) then Some (c - 87) else None.
(** Controls and what is not ASCII ([CONTROLS] of the crate url), lsp_typst_boundary.rs:20. *)
Definition control (c : nat) : bool := (c <? 32) || (126 <? c).
(** Parts of a path ([PATH] of the crate url: controls, spaces, quotes, angles, backticks, hashes, question marks and braces),
    lsp_typst_boundary.rs:20. *)
Definition in_path (c : nat) : bool := control c || existsb (Nat.eqb c) [32; 34; 60; 62; 96; 35; 63; 123; 125].
(** Parts of the path of a file ([SPECIAL_PATH_SEGMENT] of the crate url: also slashes, percent signs and backslashes),
    lsp_typst_boundary.rs:34. *)
Definition in_segment (c : nat) : bool := in_path c || existsb (Nat.eqb c) [47; 37; 92].
(** [percent_encode] of a byte (percent-encoding crate), lsp_typst_boundary.rs:20,34. *)
Definition enc (set : nat -> bool) (c : nat) : bytes := if set c then [37; digit (c / 16); digit (c mod 16)] else [c].
(** [percent_encode] (percent-encoding crate), lsp_typst_boundary.rs:20,34. *)
Definition encode (set : nat -> bool) (s : bytes) : bytes := flat_map (enc set) s.
(** [percent_decode] (percent-encoding crate), lsp_typst_boundary.rs:70. *)
Fixpoint decode (s : bytes) : bytes :=
  match s with
  | [] => []
  | 37 :: ((a :: b :: r) as t) => match undigit a, undigit b with Some x, Some y => (16 * x + y) :: decode r | _, _ => 37 :: decode t end
  | c :: r => c :: decode r
  end.
(** [split('/')], lsp_typst_boundary.rs:67. *)
Fixpoint split (s : bytes) : list bytes :=
  match s with
  | [] => [[]]
  | 47 :: r => [] :: split r
  | c :: r => match split r with [] => [[c]] | p :: ps => (c :: p) :: ps end
  end.
(** Names with slashes between them ([Path::display] of a relative path), lsp_typst_boundary.rs:20. *)
Fixpoint join (l : list bytes) : bytes := match l with [] => [] | [n] => n | n :: r => n ++ 47 :: join r end.

(** ** To addresses *)

(** What is trimmed from the end of an address (the crate url: controls and spaces), lsp_typst_boundary.rs:20. *)
Fixpoint trim_end (s : bytes) : bytes :=
  match s with [] => [] | c :: r => match trim_end r with [] => if c <=? 32 then [] else [c] | t => c :: t end end.
(** The path ends at a question mark or a hash (the crate url), lsp_typst_boundary.rs:20. *)
Fixpoint until_query (s : bytes) : bytes := match s with [] => [] | c :: r => if (c =? 63) || (c =? 35) then [] else c :: until_query r end.
(** lsp_typst_boundary.rs:19-21 [untitled_url] with [Url::parse]: tabs and line ends are left out; the path is opaque unless it begins with a
    slash.  Paths that begin with two slashes, and parts that are dots, do not come up: virtual paths and stripped paths have none. *)
Definition untitled_url (s : bytes) : url :=
  let t := until_query (filter (fun c => negb ((c =? 9) || (c =? 10) || (c =? 13))) (trim_end s)) in
  match t with
  | 47 :: _ => mkUrl (lit "untitled") None false (encode in_path t)
  | _ => mkUrl (lit "untitled") None true (encode control t)
  end.
(** lsp_typst_boundary.rs:16 [EMPTY_URL]. *)
Definition empty_url : url := mkUrl (lit "file") None false [47].
(** [Url::from_file_path] (crate url) of a path from the root, lsp_typst_boundary.rs:34. *)
Definition from_file_path (names : list bytes) : url :=
  mkUrl (lit "file") None false match names with [] => [47] | _ => flat_map (fun n => 47 :: encode in_segment n) names end.
(** lsp_typst_boundary.rs:24-39 [path_to_url]; [None] is an error. *)
Definition path_to_url (p : path) : option url :=
  match p with
  | Rel _ => None
  | Abs (n :: r) =>
      if same n (lit "untitled") then
        match r with
        | [m] => if same m (lit "nEoViM-BuG") then Some empty_url else Some (untitled_url (join r))
        | _ => Some (untitled_url (join r))
        end
      else Some (from_file_path (n :: r))
  | Abs [] => Some (from_file_path [])
  end.
(** [PathResolution], lsp_typst_boundary.rs:44-45: without a root, the virtual path. *)
Inductive resolution := Rootless (names : list bytes) | Resolved (p : path).
(** lsp_typst_boundary.rs:42-47 [path_res_to_url]. *)
Definition path_res_to_url (r : resolution) : option url :=
  match r with Rootless l => Some (untitled_url (47 :: join l)) | Resolved p => path_to_url p end.

(** ** From addresses *)

(** The names of an absolute path ([Path::components]), lsp_typst_boundary.rs:58. *)
Definition names (s : bytes) : list bytes := filter (fun n => negb (same n [] || same n [46])) (split s).
(** [Path::clean] (path-clean crate) of an absolute path, lsp_typst_boundary.rs:73. *)
Definition clean (l : list bytes) : list bytes :=
  fold_left (fun out n => if same n [46; 46] then removelast out else out ++ [n]) l [].
(** [Url::to_file_path] (crate url), lsp_typst_boundary.rs:57-59,76; [None] is an error. *)
Definition to_file_path (u : url) : option path :=
  if u_opaque u then None
  else match u_host u with
       | Some h => if same h (lit "localhost") then Some (Abs (names (flat_map (fun s => 47 :: decode s) (split (tl (u_path u)))))) else None
       | None => Some (Abs (names (flat_map (fun s => 47 :: decode s) (split (tl (u_path u))))))
       end.
Section Lossy.
(** [String::from_utf8_lossy], lsp_typst_boundary.rs:73. *)
Variable lossy : bytes -> bytes.
(** lsp_typst_boundary.rs:50-77 [url_to_path]; [None] is a panic. *)
Definition url_to_path (u : url) : option path :=
  if same (u_scheme u) (lit "file") then
    if match u_host u with None => same (u_path u) [47] | Some _ => false end then Some (Abs [lit "untitled"; lit "nEoViM-BuG"]) else to_file_path u
  else if same (u_scheme u) (lit "untitled") then
    let p := match u_path u with 47 :: r => r | p => p end in
    Some (Abs (clean (names (lossy (lit "/untitled" ++ flat_map (fun s => 47 :: decode s) (split p))))))
  else to_file_path u.
End Lossy.
