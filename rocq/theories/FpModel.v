(** Model of fingerprints: crates/tinymist-std/src/hash.rs (text form, builder) and
    crates/tinymist-std/src/adt/fmap.rs (sharded map). *)
From Coq Require Import List NArith Bool.
From Verif Require Import DigModel.
Import ListNotations.
Open Scope N_scope.

(** hash.rs:39-42 [Fingerprint]. *)
Record fp := mkFp { lo : N; hi : N }.
(** The range of [u64], hash.rs:40. *)
Definition two64 : N := 18446744073709551616.
(** hash.rs:70-76 [from_u128]. *)
Definition from_u128 (h : N) : fp := mkFp (h mod two64) (N.shiftr h 64 mod two64).
(** hash.rs:79-81 [to_u128]. *)
Definition to_u128 (f : fp) : N := N.lor (N.shiftl (hi f) 64) (lo f).
(** hash.rs:86-88 [lower32]. *)
Definition lower32 (f : fp) : N := lo f mod 4294967296.

(** [u64::to_le_bytes], hash.rs:110,117. *)
Fixpoint le_bytes (k : nat) (n : N) : list N :=
  match k with O => [] | S k => n mod 256 :: le_bytes k (n / 256) end.
(** [u64::from_le_bytes], hash.rs:95,100. *)
Fixpoint from_le (bs : list N) : N := match bs with [] => 0 | b :: r => b + 256 * from_le r end.
(** The standard alphabet of base64 (external; hash.rs:92,110). *)
Definition b64_char (i : N) : chr :=
  if i <? 26 then 65 + i else if i <? 52 then 71 + i else if i <? 62 then i - 4 else if i =? 62 then 43 else 47.
(** The value of a character; see [b64_char], hash.rs:93. *)
Definition b64_val (c : chr) : option N :=
  if (65 <=? c) && (c <=? 90) then Some (c - 65)
  else if (97 <=? c) && (c <=? 122) then Some (c - 71)
  else if (48 <=? c) && (c <=? 57) then Some (c + 4)
  else if c =? 43 then Some 62 else if c =? 47 then Some 63 else None.
(** [STANDARD_NO_PAD.encode] (external; hash.rs:110,121). *)
Fixpoint encode (bs : list N) : list chr :=
  match bs with
  | [] => []
  | [a] => [b64_char (a / 4); b64_char (a mod 4 * 16)]
  | [a; b] => [b64_char (a / 4); b64_char (a mod 4 * 16 + b / 16); b64_char (b mod 16 * 4)]
  | a :: b :: c :: r =>
      b64_char (a / 4) :: b64_char (a mod 4 * 16 + b / 16) :: b64_char (b mod 16 * 4 + c / 64) :: b64_char (c mod 64) :: encode r
  end.
(** [STANDARD_NO_PAD.decode] (external; hash.rs:92-98): no padding, no trailing bits. *)
Fixpoint decode (cs : list chr) : option (list N) :=
  match cs with
  | [] => Some []
  | [w; x] => match b64_val w, b64_val x with
              | Some w, Some x => if x mod 16 =? 0 then Some [w * 4 + x / 16] else None
              | _, _ => None
              end
  | [w; x; y] => match b64_val w, b64_val x, b64_val y with
                 | Some w, Some x, Some y => if y mod 4 =? 0 then Some [w * 4 + x / 16; x mod 16 * 16 + y / 4] else None
                 | _, _, _ => None
                 end
  | w :: x :: y :: z :: r =>
      match b64_val w, b64_val x, b64_val y, b64_val z, decode r with
      | Some w, Some x, Some y, Some z, Some bs => Some (w * 4 + x / 16 :: x mod 16 * 16 + y / 4 :: y mod 4 * 64 + z :: bs)
      | _, _, _, _, _ => None
      end
  | [_] => None
  end.
(** Drop the zeros at the end, hash.rs:119-120. *)
Fixpoint drop_zeros (bs : list N) : list N :=
  match bs with
  | [] => []
  | b :: r => match drop_zeros r with [] => if b =? 0 then [] else [b] | r => b :: r end
  end.
(** hash.rs:108-124 [as_svg_id] (also [Debug] and [Serialize], hash.rs:44-54). *)
Definition as_svg_id (prefix : list chr) (f : fp) : list chr :=
  if hi f =? 0 then prefix ++ encode (le_bytes 8 (lo f))
  else prefix ++ encode (le_bytes 8 (lo f)) ++ encode (drop_zeros (le_bytes 8 (hi f))).
(** The end of a call that may panic; hash.rs:91-102. *)
Inductive outcome (A : Type) := Ok_ (a : A) | Panic_.
Arguments Ok_ {A} _.
Arguments Panic_ {A}.
(** hash.rs:91-102 [try_from_str] (also [Deserialize], hash.rs:56-61): the slice and the
    two [expect]s panic, no error is ever returned.  [resize] cuts or fills to eight bytes. *)
Definition try_from_str (s : list chr) : outcome fp :=
  if Nat.ltb (length s) 11 then Panic_
  else match decode (firstn 11 s) with
       | Some bs =>
           if Nat.eqb (length bs) 8 then
             match decode (skipn 11 s) with
             | Some cs => Ok_ (mkFp (from_le bs) (from_le (firstn 8 (cs ++ repeat 0 8))))
             | None => Panic_
             end
           else Panic_
       | None => Panic_
       end.

(** * The builder *)
(** hash.rs:203-221 [resolve] without the feature bi-hash, for one caller at a time: [h] is
    the hash function, the state maps fingerprints to the data they were given for. *)
Section Builder.
Variable data : Type.
Variable data_eqb : data -> data -> bool.
Variable h : data -> fp.
(** Equality of fingerprints, derived at hash.rs:36. *)
Definition fp_eqb (a b : fp) : bool := (lo a =? lo b) && (hi a =? hi b).
(** [CHashMap::get], hash.rs:209. *)
Fixpoint fget (k : fp) (m : list (fp * data)) : option data :=
  match m with [] => None | (k', v) :: r => if fp_eqb k' k then Some v else fget k r end.
(** The steps of a call: the lookup (hash.rs:209) and, if nothing was found, the
    insertion (hash.rs:210), which replaces; other calls may run in between. *)
Inductive bphase := BLookup | BInsert.
(** The checker and the calls that run; hash.rs:185-191. *)
Record bst := mkB { b_map : list (fp * data); b_calls : list (nat * (data * bphase)) }.
(** A call starts (hash.rs:203) or makes its next step. *)
Inductive bevent := BCall (i : nat) (d : data) | BStep (i : nat).
(** A call returned, or panicked (hash.rs:219). *)
Inductive bout := BRet (i : nat) (d : data) (f : fp) | BConflict (i : nat) (d : data).
(** The calls that run; hash.rs:203. *)
Fixpoint bget (i : nat) (l : list (nat * (data * bphase))) : option (data * bphase) :=
  match l with [] => None | (j, x) :: r => if Nat.eqb j i then Some x else bget i r end.
(** See [bget]; hash.rs:203. *)
Definition bdel (i : nat) (l : list (nat * (data * bphase))) : list (nat * (data * bphase)) :=
  filter (fun x => negb (Nat.eqb (fst x) i)) l.
(** hash.rs:203-221 in steps. *)
Definition bstep (s : bst) (e : bevent) : bst * list bout :=
  match e with
  | BCall i d => match bget i (b_calls s) with
                 | None => (mkB (b_map s) ((i, (d, BLookup)) :: b_calls s), [])
                 | Some _ => (s, [])
                 end
  | BStep i =>
      match bget i (b_calls s) with
      | Some (d, BLookup) =>
          match fget (h d) (b_map s) with
          | None => (mkB (b_map s) ((i, (d, BInsert)) :: bdel i (b_calls s)), [])
          | Some d' => (mkB (b_map s) (bdel i (b_calls s)), [if data_eqb d' d then BRet i d (h d) else BConflict i d])
          end
      | Some (d, BInsert) => (mkB ((h d, d) :: b_map s) (bdel i (b_calls s)), [BRet i d (h d)])
      | None => (s, [])
      end
  end.
(** A run; driver of [bstep], hash.rs:203-221. *)
Fixpoint brun (s : bst) (es : list bevent) : bst * list bout :=
  match es with
  | [] => (s, [])
  | e :: r => let '(s1, o1) := bstep s e in let '(s2, o2) := brun s1 r in (s2, o1 ++ o2)
  end.
End Builder.

(** * The sharded map *)
(** fmap.rs:9 [MAX_SHARD_SIZE]. *)
Definition max_shards : N := 512.
(** [u32::next_power_of_two]; [None]: overflow, a panic in debug builds and zero in
    release builds, which the next assertion refuses (fmap.rs:59,63). *)
Definition next_pow2 (n : N) : option N := let p := 2 ^ N.log2_up n in if p <? 4294967296 then Some p else None.
(** fmap.rs:45-48 [FingerprintMap]. *)
Record fmap (V : Type) := mkFm { fm_mask : N; fm_shards : list (list (fp * V)) }.
Arguments mkFm {V} _ _.
Arguments fm_mask {V} _.
Arguments fm_shards {V} _.
(** fmap.rs:58-75 [new]; [None] is a panic. *)
Definition fm_new (V : Type) (n : N) : option (fmap V) :=
  match next_pow2 n with
  | Some p => let size := N.min p max_shards in Some (mkFm (size - 1) (repeat [] (N.to_nat size)))
  | None => None
  end.
(** fmap.rs:87 the index of the shard of a key. *)
Definition fm_index {V} (m : fmap V) (f : fp) : nat := N.to_nat (N.land (lower32 f) (fm_mask m)).
(** fmap.rs:85-94 [shard], an access without bounds check. *)
Definition fm_shard {V} (m : fmap V) (f : fp) : option (list (fp * V)) := nth_error (fm_shards m) (fm_index m f).
(** Insertion through the shard, as callers of fmap.rs:85 do. *)
Fixpoint set_nth {A} (k : nat) (x : A) (l : list A) : list A :=
  match l, k with [], _ => [] | _ :: r, O => x :: r | y :: r, S k => y :: set_nth k x r end.
(** See [set_nth]; fmap.rs:85. *)
Definition fm_insert {V} (f : fp) (v : V) (m : fmap V) : fmap V :=
  match fm_shard m f with
  | Some s => mkFm (fm_mask m) (set_nth (fm_index m f) ((f, v) :: s) (fm_shards m))
  | None => m
  end.
(** Lookup through the shard; [contains_key] of fmap.rs:102-104. *)
Definition fm_get {V} (f : fp) (m : fmap V) : option V :=
  match fm_shard m f with Some s => fget V f s | None => None end.
(** fmap.rs:12-31 [default_shard_size] for a number of threads; [None] is a panic. *)
Definition default_shards (threads : N) : option N :=
  let size := (2 ^ N.log2_up threads * 2) mod 4294967296 in
  let size := N.min size max_shards in if size =? 0 then None else Some size.
