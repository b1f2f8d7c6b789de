(** Model of the base protocol framing, crates/sync-lsp/src/msg.rs:207-248.
    A stream is the list of bytes still to be read. *)
From Coq Require Import List NArith Arith Bool String.
From Verif Require Import NumModel.
Import ListNotations.

(** Rust core [str::from_utf8] acceptance (used through [read_line] and
    [String::from_utf8]): msg.rs:213,236. *)
Definition inr (a b x : N) : bool := ((a <=? x) && (x <=? b))%N.
(** Continuation bytes, as above (msg.rs:213,236). *)
Definition cont (x : N) : bool := inr 128 191 x.
(** Well-formed UTF-8 as checked at msg.rs:213,236. *)
Fixpoint utf8_valid (l : bytes) : bool :=
  match l with
  | [] => true
  | a :: r1 =>
      if (a <? 128)%N then utf8_valid r1
      else match r1 with
      | [] => false
      | b :: r2 =>
          if inr 194 223 a then cont b && utf8_valid r2
          else match r2 with
          | [] => false
          | c :: r3 =>
              if (a =? 224)%N then inr 160 191 b && cont c && utf8_valid r3
              else if (a =? 237)%N then inr 128 159 b && cont c && utf8_valid r3
              else if inr 225 239 a then cont b && cont c && utf8_valid r3
              else match r3 with
              | [] => false
              | d :: r4 =>
                  if (a =? 240)%N then inr 144 191 b && cont c && cont d && utf8_valid r4
                  else if inr 241 243 a then cont b && cont c && cont d && utf8_valid r4
                  else if (a =? 244)%N then inr 128 143 b && cont c && cont d && utf8_valid r4
                  else false
              end
          end
      end
  end.

(** [BufRead::read_line] without the UTF-8 check: up to and including the next
    LF, or to the end of the stream: msg.rs:213. *)
Fixpoint take_line (l : bytes) : bytes * bytes :=
  match l with
  | [] => ([], [])
  | b :: r => if (b =? 10)%N then ([b], r)
              else let (x, y) := take_line r in (b :: x, y)
  end.

(** [buf.ends_with("\r\n")] and [&buf[..buf.len() - 2]], msg.rs:216-219. *)
Definition strip_crlf (l : bytes) : option bytes :=
  match rev l with
  | b :: a :: r => if ((b =? 10) && (a =? 13))%N then Some (rev r) else None
  | _ => None
  end.

(** [buf.splitn(2, ": ")], msg.rs:223-227; [None] when there is no value. *)
Fixpoint split_sep (l : bytes) : option (bytes * bytes) :=
  match l with
  | [] => None
  | a :: r =>
      match r with
      | b :: r' =>
          if ((a =? 58) && (b =? 32))%N then Some ([], r')
          else match split_sep r with
               | Some (x, y) => Some (a :: x, y)
               | None => None
               end
      | [] => None
      end
  end.

(** [str::eq_ignore_ascii_case]: msg.rs:228. *)
Definition lower (b : byte) : byte := if inr 65 90 b then (b + 32)%N else b.
(** [str::eq_ignore_ascii_case], msg.rs:228. *)
Fixpoint eq_nocase (x y : bytes) : bool :=
  match x, y with
  | [], [] => true
  | a :: x', b :: y' => (lower a =? lower b)%N && eq_nocase x' y'
  | _, _ => false
  end.

(** msg.rs:228,244. *)
Definition content_length : bytes := lit "Content-Length".

(** Result of the header loop / of reading one message: msg.rs:211-231. *)
Inductive hdr_result := HEof | HErr | HDone (size : option N) (rest : bytes) | HFuel.
(** Result of [read_msg_text], msg.rs:208. *)
Inductive msg_result := MEof | MErr | MMsg (body rest : bytes) | MFuel.

(** The loop msg.rs:211-231.  [fuel] bounds the number of lines; running out of
    it is the separate value [HFuel] (never reached, see [read_headers_fuel]). *)
Fixpoint read_headers (fuel : nat) (size : option N) (inp : bytes) : hdr_result :=
  match fuel with
  | 0 => HFuel
  | S f =>
      let (ln, rest) := take_line inp in
      match ln with
      | [] => HEof
      | _ =>
          if utf8_valid ln then
            match strip_crlf ln with
            | None => HErr
            | Some [] => HDone size rest
            | Some h =>
                match split_sep h with
                | None => HErr
                | Some (name, value) =>
                    if eq_nocase name content_length then
                      match parse_unsigned U64 value with
                      | Some n => read_headers f (Some n) rest
                      | None => HErr
                      end
                    else read_headers f size rest
                end
            end
          else HErr
      end
  end.

(** msg.rs:208-239 [read_msg_text].  The buffer allocation for [size] bytes is
    not modelled. *)
Definition read_msg (inp : bytes) : msg_result :=
  match read_headers (S (List.length inp)) None inp with
  | HFuel => MFuel
  | HEof => MEof
  | HErr => MErr
  | HDone None _ => MErr
  | HDone (Some n) rest =>
      if (n <=? N.of_nat (List.length rest))%N then
        let k := N.to_nat n in
        if utf8_valid (firstn k rest) then MMsg (firstn k rest) (skipn k rest) else MErr
      else MErr
  end.

(** msg.rs:242-248 [write_msg_text]. *)
Definition write_msg (body : bytes) : bytes :=
  content_length ++ lit ": " ++ show_dec (N.of_nat (List.length body))
    ++ [13; 10; 13; 10]%N ++ body.

(** How a stream of messages ends for the reader thread: crates/sync-lsp/src/
    transport.rs reads messages until [Ok(None)] or an error. *)
Inductive stream_end := EndEof | EndErr | EndFuel.

(** crates/sync-lsp/src/transport.rs:134-160. *)
Fixpoint read_all_fuel (fuel : nat) (inp : bytes) : list bytes * stream_end :=
  match fuel with
  | 0 => ([], EndFuel)
  | S f =>
      match read_msg inp with
      | MMsg b rest => let (ms, e) := read_all_fuel f rest in (b :: ms, e)
      | MEof => ([], EndEof)
      | MErr => ([], EndErr)
      | MFuel => ([], EndFuel)
      end
  end.
(** crates/sync-lsp/src/transport.rs:134-160 on a whole stream. *)
Definition read_all (inp : bytes) : list bytes * stream_end :=
  read_all_fuel (S (List.length inp)) inp.

(** Writing a list of messages one after the other: crates/sync-lsp/src/transport.rs:124-131. *)
Definition write_all (ms : list bytes) : bytes := List.concat (map write_msg ms).
