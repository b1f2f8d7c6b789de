(** Semantic tokens: crates/tinymist-query/src/analysis/semantic_tokens.rs
    (tokens.rs) and crates/tinymist-query/src/semantic_tokens_delta.rs (delta.rs).

    Syntax trees carry their text in the leaves; the type of a node (from its
    kind and context, tokens.rs:557-640) and its modifiers (tokens.rs:541-548) are
    given with it.  Numbers do not overflow [u32]. *)
From Coq Require Import List NArith Arith Bool.
From Verif Require Import TextModel.
Import ListNotations.

(** tokens.rs:520-525 [Token]. *)
Record tok := mkTok { k_ty : nat; k_md : nat; k_start : nat; k_end : nat }.
(** A [SemanticToken] of the protocol, as pushed in tokens.rs:424-430. *)
Record stok := mkStok { d_line : nat; d_start : nat; d_len : nat; d_ty : nat; d_md : nat }.
(** tokens.rs:307-318 [Tokenizer] without [token]; the output is kept in order. *)
Record pst := mkPst { p_curr : pos; p_off : nat; p_out : list stok }.
(** tokens.rs:327-331. *)
Definition pst0 : pst := mkPst (mkPos 0 0) 0 [].

(** tokens.rs:411-421 [encode_length]; [None] for the panics of the subtraction
    (an overflow) and of the unwraps. *)
Definition sub (a b : nat) : option nat := if b <=? a then Some (a - b) else None.
(** See [sub]; tokens.rs:411-421. *)
Definition encode_length (e : encoding) (t : text) (s x : nat) : option nat :=
  match e with
  | Utf8 => sub x s
  | Utf16 => match byte_to_utf16 t s, byte_to_utf16 t x with
             | Some a, Some b => sub b a
             | _, _ => None
             end
  end.
(** tokens.rs:497-509 [delta]. *)
Definition delta (a b : pos) : option (nat * nat) :=
  match sub (p_line b) (p_line a) with
  | None => None
  | Some 0 => option_map (fun c => (0, c)) (sub (p_char b) (p_char a))
  | Some l => Some (l, p_char b)
  end.
(** tokens.rs:437-440,462-464. *)
Definition line_end (t : text) (l : nat) : nat :=
  match line_to_byte t (l + 1) with Some x => x | None => len8 t end.

(** The loop of tokens.rs:458-483 over [n] lines from [line]; the state, the
    pending lines and the cursor are its variables. *)
Fixpoint spread (e : encoding) (t : text) (ty md fin fend : nat) (n line cursor dl : nat) (s : pst) : option (nat * pst) :=
  match n with
  | 0 => Some (dl, s)
  | S n =>
      let next := if line =? fin then fend else line_end t line in
      if cursor <? next then
        match encode_length e t cursor next with
        | None => None
        | Some len =>
            spread e t ty md fin fend n (S line) next 0
              (mkPst (mkPos (p_line (p_curr s)) 0) cursor (p_out s ++ [mkStok (dl + 1) 0 len ty md]))
        end
      else spread e t ty md fin fend n (S line) next (S dl) (mkPst (p_curr s) cursor (p_out s))
  end.
(** tokens.rs:385-485 [push]. *)
Definition push (e : encoding) (t : text) (multi : bool) (k : tok) (s : pst) : option pst :=
  if k_start k <? p_off s then Some s
  else
    let fend := Nat.min (k_end k) (len8 t) in
    let s1 := mkPst (p_curr s) (k_start k) (p_out s) in
    if (fend <=? k_start k) || (len8 t <? k_start k) then Some s1
    else
      match to_lsp_position (k_start k) e t with
      | None => None
      | Some p =>
          match delta (p_curr s) p with
          | None => None
          | Some (dl, dc) =>
              if multi then
                match encode_length e t (k_start k) fend with
                | None => None
                | Some len => Some (mkPst p (k_start k) (p_out s ++ [mkStok dl dc len (k_ty k) (k_md k)]))
                end
              else
                let fin := match byte_to_line t fend with Some l => l | None => len_lines t end in
                let next := line_end t (p_line (p_curr s)) in
                match encode_length e t (k_start k) (Nat.min fend next) with
                | None => None
                | Some len =>
                    let s2 := if len =? 0 then s1
                              else mkPst p (k_start k) (p_out s ++ [mkStok dl dc len (k_ty k) (k_md k)]) in
                    let cl := p_line (p_curr s2) in
                    if fin <=? cl then Some s2
                    else
                      match spread e t (k_ty k) (k_md k) fin fend (fin - cl) (S cl) next 0 s2 with
                      | None => None
                      | Some (d, s3) => Some (mkPst (mkPos (fin - d) (p_char (p_curr s3))) (p_off s3) (p_out s3))
                      end
                end
          end
      end.

(** A syntax tree.  A node without children is a leaf for tokens.rs:342. *)
Inductive node := Leaf (ty : option nat) (md : nat) (s : text) | Inner (ty : option nat) (md : nat) (ch : list node).
(** The text of a node, [LinkedNode::range] at tokens.rs:345. *)
Fixpoint str (n : node) : text :=
  match n with Leaf _ _ s => s | Inner _ _ ch => flat_map str ch end.
(** [TokenType::Text], the default at tokens.rs:347; its number by tokens.rs:135-189. *)
Definition TEXT : nat := 22.
(** tokens.rs:351-363 "Push start", with [self.token]. *)
Definition push_start (e : encoding) (t : text) (multi : bool) (o : nat) (s : pst * option tok) : option (pst * option tok) :=
  match snd s with
  | Some p =>
      if (k_start p <? k_end p) && (k_start p <? o) then
        let x := Nat.min (k_end p) o in
        option_map (fun s1 => (s1, Some (mkTok (k_ty p) (k_md p) x (k_end p))))
                   (push e t multi (mkTok (k_ty p) (k_md p) (k_start p) x) (fst s))
      else Some s
  | None => Some s
  end.
(** tokens.rs:374-382 "Push end"; [tk] is the token of the node. *)
Definition push_end (e : encoding) (t : text) (multi : bool) (tk : option tok) (s : pst * option tok) : option (pst * option tok) :=
  match tk with
  | Some k =>
      if k_start k <? k_end k then
        option_map (fun s1 => (s1, option_map (fun p => mkTok (k_ty p) (k_md p) (k_end k) (k_end p)) (snd s)))
                   (push e t multi k (fst s))
      else Some s
  | None => Some s
  end.
(** tokens.rs:341-383 [tokenize_tree] on the node at offset [o]. *)
Fixpoint tokenize (e : encoding) (t : text) (multi : bool) (n : node) (o mods : nat) (s : pst * option tok) : option (pst * option tok) :=
  match push_start e t multi o s with
  | None => None
  | Some s1 =>
      match n with
      | Leaf ty md x =>
          push_end e t multi (Some (mkTok (match ty with Some y => y | None => TEXT end) (Nat.lor mods md) o (o + len8 x))) s1
      | Inner ty md ch =>
          let m := Nat.lor mods md in
          let tk := option_map (fun y => mkTok y m o (o + len8 (str n))) ty in
          match (fix go (l : list node) (o : nat) (s : pst * option tok) : option (pst * option tok) :=
                   match l with
                   | [] => Some s
                   | x :: r => match tokenize e t multi x o m s with None => None | Some s' => go r (o + len8 (str x)) s' end
                   end) ch o (fst s1, tk) with
          | None => None
          | Some (s2, tk2) => push_end e t multi tk2 (s2, snd s1)
          end
      end
  end.
(** tokens.rs:28-38 [get_semantic_tokens]; [None] is a panic. *)
Definition semantic_tokens (e : encoding) (multi : bool) (n : node) : option (list stok) :=
  option_map (fun s => p_out (fst s)) (tokenize e (str n) multi n 0 0 (pst0, None)).

(** * Deltas *)
Section Delta.
Context {A : Type} (eqb : A -> A -> bool).
(** [zip], [take_while] and [count] of delta.rs:58-62. *)
Fixpoint common (a b : list A) : nat :=
  match a, b with x :: a, y :: b => if eqb x y then S (common a b) else 0 | _, _ => 0 end.
End Delta.
(** A [SemanticTokensEdit], delta.rs:80-84. *)
Record edit := mkEdit { e_start : nat; e_delete : nat; e_data : list stok }.
(** Derived equality of [SemanticToken], delta.rs:61. *)
Definition stok_eqb (a b : stok) : bool :=
  (d_line a =? d_line b) && (d_start a =? d_start b) && (d_len a =? d_len b) && (d_ty a =? d_ty b) && (d_md a =? d_md b).
(** delta.rs:54-86 [token_delta]. *)
Definition token_delta (from to : list stok) : list edit :=
  let start := common stok_eqb from to in
  let from1 := skipn start from in
  let to1 := skipn start to in
  let dist := common stok_eqb (rev from1) (rev to1) in
  let from2 := firstn (length from1 - dist) from1 in
  let to2 := firstn (length to1 - dist) to1 in
  match from2, to2 with
  | [], [] => []
  | _, _ => [mkEdit (5 * start) (5 * length from2) to2]
  end.
