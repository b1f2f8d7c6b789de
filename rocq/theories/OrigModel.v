(** Model of who is served by the HTTP servers: crates/tinymist/src/tool/preview/http.rs and that of the timings,
    crates/tinymist/src/task/user_action.rs:228-286.  The parser of URLs is a parameter. *)
From Coq Require Import List NArith Bool.
From Verif Require Import DigModel PathModel.
Import ListNotations.
Open Scope N_scope.

(** What is used of [Url] (external): scheme, host, port if it is written and not the default of the scheme, and path;
    http.rs:189-201. *)
Record url := mkUrl { u_scheme : list chr; u_host : option (list chr); u_port : option N; u_path : list chr }.
(** "http://", http.rs:200,204. *)
Definition http_pre : list chr := [104; 116; 116; 112; 58; 47; 47].
(** "https://", http.rs:210. *)
Definition https_pre : list chr := [104; 116; 116; 112; 115; 58; 47; 47].
(** "http", http.rs:227. *)
Definition s_http : list chr := [104; 116; 116; 112].
(** "https"; the scheme of http.rs:210. *)
Definition s_https : list chr := [104; 116; 116; 112; 115].
(** "vscode-webview", http.rs:219. *)
Definition s_vscode : list chr := [118; 115; 99; 111; 100; 101; 45; 119; 101; 98; 118; 105; 101; 119].
(** "localhost", http.rs:226. *)
Definition h_local : list chr := [108; 111; 99; 97; 108; 104; 111; 115; 116].
(** "127.0.0.1", http.rs:226. *)
Definition h_loop : list chr := [49; 50; 55; 46; 48; 46; 48; 46; 49].
(** http.rs:199-205: the origin of pages of this server; [None] is a panic of [unwrap]. *)
Definition expected (P : list chr -> option url) (addr : list chr) (port : N) : option (list chr) :=
  match P (http_pre ++ addr) with
  | Some u => match u_host u with Some h => Some (http_pre ++ h ++ 58 :: print_num 10 port) | None => None end
  | None => None
  end.
(** http.rs:207-211: the origin of a gitpod proxy. *)
Definition gitpod (g : option (list chr * list chr)) (port : N) : option (list chr) :=
  option_map (fun x => https_pre ++ print_num 10 port ++ 45 :: fst x ++ 46 :: snd x) g.
(** http.rs:183-233 [is_valid_origin_impl]; [None] is a panic.  A header that is not visible ASCII is refused at http.rs:189:
    such headers are those that [P] does not parse. *)
Definition valid_origin (P : list chr -> option url) (g : option (list chr * list chr)) (addr : list chr) (port : N) (h : list chr) : option bool :=
  match P h with
  | None => Some false
  | Some u =>
      if negb (text_eqb (u_path u) [47]) && negb (text_eqb (u_path u) []) then Some false
      else match expected P addr port with
           | None => None
           | Some e =>
               Some (text_eqb h e
                     || text_eqb (u_scheme u) s_vscode
                     || (match u_host u with Some x => text_eqb x h_local || text_eqb x h_loop | None => false end && text_eqb (u_scheme u) s_http)
                     || match gitpod g port with Some o => text_eqb o h | None => false end)
           end
  end.
(** A request: the header [Origin] if any, whether it asks for a websocket, and its path; http.rs:65-90. *)
Record request := mkReq { r_origin : option (list chr); r_upgrade : bool; r_path : list chr }.
(** What is done with it: the connection is closed, a websocket is opened, the page is sent, a redirect to it, or a panic;
    http.rs:66-105. *)
Inductive served := Closed | Websocket | Page | Redirect | Crashed.
(** http.rs:46-106: the service.  The upgrade of a well-formed request succeeds (external). *)
Definition serve (P : list chr -> option url) (g : option (list chr * list chr)) (addr : list chr) (port : N) (r : request) : served :=
  match (match r_origin r with Some h => valid_origin P g addr port h | None => Some true end) with
  | None => Crashed
  | Some false => Closed
  | Some true => if r_upgrade r then Websocket else if text_eqb (r_path r) [47] then Page else Redirect
  end.
(** [starts_with]; user_action.rs:258. *)
Fixpoint starts (p s : list chr) : bool :=
  match p, s with [], _ => true | x :: p, y :: s => (x =? y) && starts p s | _ :: _, [] => false end.
(** "vscode-webview://", user_action.rs:258. *)
Definition vscode_pre : list chr := s_vscode ++ [58; 47; 47].
(** user_action.rs:242-285: the service of the timings: closed, nothing (for HEAD) or the timings, or a redirect; with the origin that
    is allowed to read it. *)
Inductive traced := TClosed | TEmpty (allow : list chr) | TTimings (allow : list chr) | TRedirect (allow : list chr).
(** See [traced]; user_action.rs:255-283. *)
Definition trace (r : request) (head : bool) : traced :=
  match r_origin r with
  | Some h => if starts vscode_pre h then
                if text_eqb (r_path r) [47] then if head then TEmpty h else TTimings h else TRedirect h
              else TClosed
  | None => TClosed
  end.
