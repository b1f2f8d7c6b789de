(** Translations of messages: the file of translations, the locale, the
    arguments of messages, and the tool that finds the messages of the program.
    crates/tinymist-l10n/src/lib.rs and crates/tinymist-l10n/src/main.rs.
    A text is a list of code points. *)
From Coq Require Import String Ascii.
From Coq Require Import List Arith NArith Bool.
Import ListNotations.
Local Open Scope nat_scope.

(** crates/tinymist-l10n/src/lib.rs:17-18 *)
Definition text := list N.
(** Literals, crates/tinymist-l10n/src/lib.rs:114. *)
Definition lit (s : string) : text := map N_of_ascii (list_ascii_of_string s).
(** Equality of strings, crates/tinymist-l10n/src/lib.rs:237. *)
Fixpoint eqb (a b : text) : bool :=
  match a, b with
  | [], [] => true
  | x :: a', y :: b' => N.eqb x y && eqb a' b'
  | _, _ => false
  end.
(** Order of strings, crates/tinymist-l10n/src/lib.rs:74,117,127. *)
Fixpoint leb (a b : text) : bool :=
  match a, b with
  | [], _ => true
  | _ :: _, [] => false
  | x :: a', y :: b' => if N.eqb x y then leb a' b' else N.ltb x y
  end.
(** [strip_prefix] and [starts_with], crates/tinymist-l10n/src/lib.rs:43,
    crates/tinymist-l10n/src/main.rs:84-86. *)
Fixpoint strip_prefix (p s : text) : option text :=
  match p, s with
  | [], _ => Some s
  | x :: p', y :: s' => if N.eqb x y then strip_prefix p' s' else None
  | _, [] => None
  end.
(** [char::is_whitespace], crates/tinymist-l10n/src/lib.rs:269. *)
Definition white (c : N) : bool :=
  existsb (N.eqb c) [9; 10; 11; 12; 13; 32; 133; 160; 5760; 8192; 8193; 8194; 8195; 8196; 8197; 8198; 8199; 8200; 8201; 8202; 8232; 8233; 8239; 8287; 12288]%N.
(** [trim_start], crates/tinymist-l10n/src/main.rs:104. *)
Fixpoint trim_start (s : text) : text := match s with c :: s' => if white c then trim_start s' else s | [] => [] end.
(** [trim], crates/tinymist-l10n/src/lib.rs:269. *)
Definition trim (s : text) : text := rev (trim_start (rev (trim_start s))).
(** The bytes of a string, crates/tinymist-l10n/src/lib.rs:43. *)
Definition bytes (s : text) : nat :=
  fold_right (fun c n => (if N.ltb c 128 then 1 else if N.ltb c 2048 then 2 else if N.ltb c 65536 then 3 else 4) + n) 0 s.

(** * Maps *)

(** Hash maps, in some order; crates/tinymist-l10n/src/lib.rs:17-20. *)
Definition map_of (A : Type) := list (text * A).
(** crates/tinymist-l10n/src/lib.rs:39,163 *)
Definition lookup {A} (k : text) (m : map_of A) : option A :=
  match find (fun p => eqb (fst p) k) m with Some p => Some (snd p) | None => None end.
(** crates/tinymist-l10n/src/lib.rs:104-107 *)
Fixpoint insert {A} (k : text) (v : A) (m : map_of A) : map_of A :=
  match m with
  | [] => [(k, v)]
  | (k', v') :: m' => if eqb k' k then (k', v) :: m' else (k', v') :: insert k v m'
  end.
(** [entry(..).or_default().insert(..)], crates/tinymist-l10n/src/lib.rs:104-107,291-300. *)
Definition insert2 (k l : text) (v : text) (m : map_of (map_of text)) : map_of (map_of text) :=
  insert k (insert l v (match lookup k m with Some x => x | None => [] end)) m.

(** * The locale *)

(** The two globals, crates/tinymist-l10n/src/lib.rs:22-23. *)
Record globals := { all : option (map_of (map_of text)); current : option (map_of text) }.
(** crates/tinymist-l10n/src/lib.rs:26-32 *)
Definition set_translations (t : map_of (map_of text)) (g : globals) : globals :=
  match all g with None => {| all := Some t; current := current g |} | Some _ => g end.
(** The language of a locale with a region: [locale] starts with [k] and the
    character of the index of its length is a hyphen.
    crates/tinymist-l10n/src/lib.rs:41-45. *)
Definition region_of (locale k : text) : bool :=
  match strip_prefix k locale with
  | Some _ => match nth_error locale (bytes k) with Some c => N.eqb c 45 | None => false end
  | None => false
  end.
(** [set_locale], crates/tinymist-l10n/src/lib.rs:35-50. *)
Definition set_locale (lower : text -> text) (locale : text) (g : globals) : globals * bool :=
  match all g with
  | None => (g, false)
  | Some t =>
      let locale := lower locale in
      match (match lookup locale t with
             | Some m => Some m
             | None => match find (fun p => region_of locale (fst p)) t with Some p => Some (snd p) | None => None end
             end) with
      | Some m => ({| all := all g; current := Some m |}, true)
      | None => (g, false)
      end
  end.

(** [find_message], crates/tinymist-l10n/src/lib.rs:158-164. *)
Definition find_message (g : globals) (key message : text) : text :=
  match current g with
  | None => message
  | Some m => match lookup key m with Some t => t | None => message end
  end.

(** [take_while] up to a character, which is taken too; what is left.
    crates/tinymist-l10n/src/lib.rs:235. *)
Fixpoint until (c : N) (s : text) : text * text :=
  match s with
  | [] => ([], [])
  | x :: s' => if N.eqb x c then ([], s') else (x :: fst (until c s'), snd (until c s'))
  end.
(** The loop over the message; arguments are as they are printed.
    crates/tinymist-l10n/src/lib.rs:232-258. *)
Fixpoint interpolate (fuel : nat) (args : list (text * text)) (s : text) : text :=
  match fuel, s with
  | S fuel', c :: s' =>
      if N.eqb c 123 then
        let '(name, rest) := until 125 s' in
        let rest := tl rest in
        match find (fun a => eqb (fst a) name) args with
        | None => (c :: name) ++ interpolate fuel' args rest
        | Some a => snd a ++ interpolate fuel' args rest
        end
      else c :: interpolate fuel' args s'
  | _, _ => []
  end.
(** [t_with_args], crates/tinymist-l10n/src/lib.rs:206-261. *)
Definition t_with_args (g : globals) (key message : text) (args : list (text * text)) : text :=
  let message := find_message g key message in interpolate (length message) args message.

(** * The file of translations *)

(** How reading ends, crates/tinymist-l10n/src/lib.rs:266. *)
Inductive result (A : Type) := Ok (a : A) | Err | Panic.
Arguments Ok {A}. Arguments Err {A}. Arguments Panic {A}.

(** [split('\n')], crates/tinymist-l10n/src/lib.rs:268. *)
Fixpoint split_lines (s : text) : list text :=
  match s with
  | [] => [[]]
  | c :: s' =>
      if N.eqb c 10 then [] :: split_lines s'
      else match split_lines s' with l :: ls => (c :: l) :: ls | [] => [[c]] end
  end.
(** The lines that count, crates/tinymist-l10n/src/lib.rs:267-271. *)
Definition useful (s : text) : list text :=
  filter (fun l => match l with [] => false | c :: _ => negb (N.eqb c 35) end) (map trim (split_lines s)).
(** [line[1..line.len() - 1]] after the bracket; [None]: not a range of
    characters.  crates/tinymist-l10n/src/lib.rs:277-278. *)
Definition section_name (rest : text) : option text :=
  match rev rest with
  | [] => None
  | c :: r => if N.ltb c 128 then Some (rev r) else None
  end.
(** The parts around the first equals sign, crates/tinymist-l10n/src/lib.rs:280-288. *)
Fixpoint split_equal (s : text) : option (text * text) :=
  match s with
  | [] => None
  | c :: s' =>
      if N.eqb c 61 then Some ([], s')
      else match split_equal s' with Some (a, b) => Some (c :: a, b) | None => None end
  end.
(** The loop over the lines, crates/tinymist-l10n/src/lib.rs:276-303. *)
Fixpoint read_lines (key_first : bool) (key : text) (m : map_of (map_of text)) (ls : list text) : result (map_of (map_of text)) :=
  match ls with
  | [] => Ok m
  | l :: ls' =>
      match strip_prefix [91%N] l with
      | Some rest => match section_name rest with Some k => read_lines key_first k m ls' | None => Panic end
      | None =>
          match split_equal l with
          | None => Err
          | Some (a, b) =>
              let lang := trim a in let v := trim b in
              read_lines key_first key (if key_first then insert2 key lang v m else insert2 lang key v m) ls'
          end
      end
  end.
(** [deserialize], crates/tinymist-l10n/src/lib.rs:266-306. *)
Definition deserialize (s : text) (key_first : bool) : result (map_of (map_of text)) := read_lines key_first [] [] (useful s).

(** One message, crates/tinymist-l10n/src/lib.rs:57-62; [json] is the parser of strings. *)
Definition load_one (json : text -> option text) (v : text) : option text :=
  match strip_prefix [34%N] v with
  | Some _ => json v
  | None => Some v
  end.
(** crates/tinymist-l10n/src/lib.rs:55-64 *)
Fixpoint load_map (json : text -> option text) (m : map_of text) : option (map_of text) :=
  match m with
  | [] => Some []
  | (k, v) :: m' =>
      match load_one json v, load_map json m' with
      | Some v', Some m'' => Some ((k, v') :: m'')
      | _, _ => None
      end
  end.
(** crates/tinymist-l10n/src/lib.rs:55-64 *)
Fixpoint load_maps (json : text -> option text) (m : map_of (map_of text)) : option (map_of (map_of text)) :=
  match m with
  | [] => Some []
  | (k, v) :: m' =>
      match load_map json v, load_maps json m' with
      | Some v', Some m'' => Some ((k, v') :: m'')
      | _, _ => None
      end
  end.
(** [load_translations], crates/tinymist-l10n/src/lib.rs:53-67. *)
Definition load_translations (json : text -> option text) (s : text) : result (map_of (map_of text)) :=
  match deserialize s false with
  | Ok m => match load_maps json m with Some m' => Ok m' | None => Panic end
  | Err => Err
  | Panic => Panic
  end.

(** [sort_by] of the keys, which is stable; crates/tinymist-l10n/src/lib.rs:74,117,127. *)
Fixpoint put {A} (x : text * A) (l : map_of A) : map_of A :=
  match l with
  | [] => [x]
  | y :: l' => if leb (fst x) (fst y) then x :: l else y :: put x l'
  end.
(** crates/tinymist-l10n/src/lib.rs:74,117,127 *)
Definition sort {A} (l : map_of A) : map_of A := fold_right put [] l.

(** [update_translations], crates/tinymist-l10n/src/lib.rs:93-108. *)
Definition update_translations (kvs : list (text * text)) (m : map_of (map_of text)) : map_of (map_of text) :=
  fold_left (fun m p => insert2 (fst p) (lit "en") (snd p) m) kvs
    (filter (fun p => existsb (fun q => eqb (fst q) (fst p)) kvs) m).

(** The lines of one key; [None]: no English message.
    crates/tinymist-l10n/src/lib.rs:119-133. *)
Definition write_key (k : text) (d : map_of text) : option text :=
  match lookup (lit "en") d with
  | None => None
  | Some en =>
      Some ([10; 91]%N ++ k ++ [93; 10]%N ++ lit "en = " ++ en ++ [10%N] ++
        flat_map (fun p => fst p ++ lit " = " ++ snd p ++ [10%N]) (sort (filter (fun p => negb (eqb (fst p) (lit "en"))) d)))
  end.
(** crates/tinymist-l10n/src/lib.rs:119-133 *)
Fixpoint write_keys (m : map_of (map_of text)) : option text :=
  match m with
  | [] => Some []
  | (k, d) :: m' =>
      match write_key k d, write_keys m' with
      | Some a, Some b => Some (a ++ b)
      | _, _ => None
      end
  end.
(** [serialize_translations]; [None] is a panic.  crates/tinymist-l10n/src/lib.rs:111-136. *)
Definition serialize (m : map_of (map_of text)) : option text :=
  match write_keys (sort m) with
  | Some t => Some ([10%N] ++ lit "# The translations are partially generated by copilot" ++ [10%N] ++ t)
  | None => None
  end.
(** [update_disk_translations]: the file that is written; [None]: there is no file.
    crates/tinymist-l10n/src/lib.rs:70-90. *)
Definition update_disk (kvs : list (text * text)) (file : option text) : result text :=
  let kvs := sort kvs in
  match (match file with Some s => deserialize s true | None => Ok [] end) with
  | Ok m => match serialize (update_translations kvs m) with Some t => Ok t | None => Panic end
  | Err => Err
  | Panic => Panic
  end.

(** * The messages of the program *)

(** crates/tinymist-l10n/src/main.rs:103-110 *)
Definition parse_char (c : N) (s : text) : option text := strip_prefix [c] (trim_start s).
(** The loop of [parse_str], crates/tinymist-l10n/src/main.rs:115-129. *)
Fixpoint str_end (escape : bool) (s : text) : option (text * text) :=
  match s with
  | [] => None
  | c :: s' =>
      let more e := match str_end e s' with Some (a, b) => Some (c :: a, b) | None => None end in
      if escape then more false
      else if N.eqb c 92 then more true
      else if N.eqb c 34 then Some ([], s')
      else more false
  end.
(** crates/tinymist-l10n/src/main.rs:112-130 *)
Definition parse_str (s : text) : option (text * text) :=
  match parse_char 34 s with Some s' => str_end false s' | None => None end.
(** A text in quotes, crates/tinymist-l10n/src/main.rs:78,95. *)
Definition in_quotes (s : text) : text := [34%N] ++ s ++ [34%N].
(** crates/tinymist-l10n/src/main.rs:75-79 *)
Definition args_ts (s : text) : option (text * text) :=
  match parse_char 40 s with
  | Some s => match parse_str s with Some (k, _) => Some (in_quotes k, in_quotes k) | None => None end
  | None => None
  end.
(** crates/tinymist-l10n/src/main.rs:90-96 *)
Definition args_rs (s : text) : option (text * text) :=
  match parse_char 40 s with
  | Some s =>
      match parse_str s with
      | Some (k, s) =>
          match parse_char 44 s with
          | Some s => match parse_str s with Some (v, _) => Some (k, in_quotes v) | None => None end
          | None => None
          end
      | None => None
      end
  | None => None
  end.
(** A call at the start of a text, crates/tinymist-l10n/src/main.rs:69-98; the
    letter that is looked for is the first of the prefix. *)
Definition call_at (is_rs : bool) (s : text) : option (text * text) :=
  if is_rs then
    match strip_prefix (lit "tinymist_l10n::") s with
    | Some s =>
        match (match strip_prefix (lit "t!") s with Some s => Some s | None => strip_prefix (lit "bail!") s end) with
        | Some s => args_rs s
        | None => None
        end
    | None => None
    end
  else match strip_prefix (lit "l10nMsg") s with Some s => args_ts s | None => None end.
(** [check_calls] of the text of a file, crates/tinymist-l10n/src/main.rs:66-101. *)
Fixpoint calls (is_rs : bool) (s : text) : list (text * text) :=
  match s with
  | [] => []
  | _ :: s' => match call_at is_rs s with Some x => x :: calls is_rs s' | None => calls is_rs s' end
  end.
