(** * Base: bytes, characters, UTF-8 and the [str] operations used by the crate.

    Bytes ([u8]) and Unicode scalar values ([char]) are both [N].  A Rust
    [&[u8]] is a [list N] of bytes; a Rust [String]/[&str] is a [list N] of
    *characters* (so it is the decoded text), and [utf8_encode] gives its
    bytes.  Everything here models the Rust standard library functions the
    crate calls, it is not code of the repository itself; the call sites are
    cited. *)
From Coq Require Export List Bool NArith ZArith Lia.
From Coq Require Export String Ascii.
From Coq Require Export DecimalN.
Export ListNotations.
Open Scope list_scope.
Open Scope N_scope.

Definition bytes := list N.
Definition str := list N.

(** String literals: [lit "abc"] is elaborated to the list of its codes. *)
Definition codes_of_string (s : string) : list N :=
  map N_of_ascii (list_ascii_of_string s).
Notation "'lit' s" :=
  (ltac:(let x := eval compute in (codes_of_string s%string) in exact x))
  (at level 0, s at level 0, only parsing).
Notation "'chr' c" :=
  (ltac:(let x := eval compute in (N_of_ascii c%char) in exact x))
  (at level 0, c at level 0, only parsing).

(** ** Equality of lists of codes ([==] on [&str] / [&[u8]]) *)
Fixpoint str_eqb (a b : list N) : bool :=
  match a, b with
  | [], [] => true
  | x :: a', y :: b' => (x =? y) && str_eqb a' b'
  | _, _ => false
  end.

(** Lexicographic order: [Ord for String], the key order of [BTreeMap<String,_>]
    (parser/mod.rs:71, base/mod.rs:27).  Byte order of UTF-8 is code point order. *)
Fixpoint str_ltb (a b : list N) : bool :=
  match a, b with
  | [], [] => false
  | [], _ :: _ => true
  | _ :: _, [] => false
  | x :: a', y :: b' => if x =? y then str_ltb a' b' else x <? y
  end.

(** ** Character classes *)

(** [u8::is_ascii_whitespace]: space, tab, LF, FF, CR (not VT). *)
Definition is_ascii_ws (c : N) : bool :=
  (c =? 32) || (c =? 9) || (c =? 10) || (c =? 12) || (c =? 13).

(** [u8::is_ascii_digit] *)
Definition is_digit (c : N) : bool := (48 <=? c) && (c <=? 57).

(** [u8::is_ascii_alphanumeric] *)
Definition is_alnum (c : N) : bool :=
  is_digit c || ((65 <=? c) && (c <=? 90)) || ((97 <=? c) && (c <=? 122)).

(** [char::is_whitespace] (Unicode White_Space), used by [str::trim_end],
    [str::trim_start], [str::trim] and [ends_with(char::is_whitespace)]. *)
Definition is_uni_ws (c : N) : bool :=
  ((9 <=? c) && (c <=? 13)) || (c =? 32) || (c =? 133) || (c =? 160)
  || (c =? 5760) || ((8192 <=? c) && (c <=? 8202)) || (c =? 8232) || (c =? 8233)
  || (c =? 8239) || (c =? 8287) || (c =? 12288).

(** ** UTF-8 *)

(** A Unicode scalar value: what a Rust [char] can hold. *)
Definition valid_char (c : N) : bool :=
  (c <? 55296) || ((57344 <=? c) && (c <? 1114112)).

(** [char::encode_utf8] *)
Definition encode_char (c : N) : list N :=
  if c <? 128 then [c]
  else if c <? 2048 then [192 + c / 64; 128 + c mod 64]
  else if c <? 65536 then [224 + c / 4096; 128 + (c / 64) mod 64; 128 + c mod 64]
  else [240 + c / 262144; 128 + (c / 4096) mod 64; 128 + (c / 64) mod 64; 128 + c mod 64].

(** [str::as_bytes] *)
Definition utf8_encode (s : str) : bytes := flat_map encode_char s.

Definition is_cont (b : N) : bool := (128 <=? b) && (b <=? 191).

(** second byte admissible after a three-byte lead *)
Definition ok3 (b0 b1 : N) : bool :=
  if b0 =? 224 then (160 <=? b1) && (b1 <=? 191)
  else if b0 =? 237 then (128 <=? b1) && (b1 <=? 159)
  else is_cont b1.

(** second byte admissible after a four-byte lead *)
Definition ok4 (b0 b1 : N) : bool :=
  if b0 =? 240 then (144 <=? b1) && (b1 <=? 191)
  else if b0 =? 244 then (128 <=? b1) && (b1 <=? 143)
  else is_cont b1.

(** U+FFFD REPLACEMENT CHARACTER *)
Definition repl : N := 65533.

(** [String::from_utf8_lossy] (used by [Parser::text], base/mod.rs:74-80, and
    [indicated_msg], indicator.rs:32): every maximal ill-formed part becomes one
    U+FFFD (the algorithm of [core::str::lossy::Utf8Chunks]). *)
Fixpoint utf8_lossy (l : bytes) : str :=
  match l with
  | [] => []
  | b0 :: r =>
    if b0 <? 128 then b0 :: utf8_lossy r
    else if (194 <=? b0) && (b0 <=? 223) then
      match r with
      | b1 :: r1 =>
        if is_cont b1 then ((b0 - 192) * 64 + (b1 - 128)) :: utf8_lossy r1
        else repl :: utf8_lossy r
      | [] => [repl]
      end
    else if (224 <=? b0) && (b0 <=? 239) then
      match r with
      | b1 :: r1 =>
        if ok3 b0 b1 then
          match r1 with
          | b2 :: r2 =>
            if is_cont b2
            then ((b0 - 224) * 4096 + (b1 - 128) * 64 + (b2 - 128)) :: utf8_lossy r2
            else repl :: utf8_lossy r1
          | [] => [repl]
          end
        else repl :: utf8_lossy r
      | [] => [repl]
      end
    else if (240 <=? b0) && (b0 <=? 244) then
      match r with
      | b1 :: r1 =>
        if ok4 b0 b1 then
          match r1 with
          | b2 :: r2 =>
            if is_cont b2 then
              match r2 with
              | b3 :: r3 =>
                if is_cont b3
                then ((b0 - 240) * 262144 + (b1 - 128) * 4096 + (b2 - 128) * 64
                      + (b3 - 128)) :: utf8_lossy r3
                else repl :: utf8_lossy r2
              | [] => [repl]
              end
            else repl :: utf8_lossy r1
          | [] => [repl]
          end
        else repl :: utf8_lossy r
      | [] => [repl]
      end
    else repl :: utf8_lossy r
  end.

(** ** [str] methods *)

(** [str::trim_start] *)
Fixpoint trim_start (s : str) : str :=
  match s with
  | [] => []
  | c :: r => if is_uni_ws c then trim_start r else s
  end.

(** [str::trim_end] *)
Fixpoint trim_end (s : str) : str :=
  match s with
  | [] => []
  | c :: r =>
    match trim_end r with
    | [] => if is_uni_ws c then [] else [c]
    | r' => c :: r'
    end
  end.

(** [str::trim] *)
Definition trim (s : str) : str := trim_end (trim_start s).

(** [str::starts_with(&str)] *)
Fixpoint starts_with (p s : list N) : bool :=
  match p, s with
  | [], _ => true
  | x :: p', y :: s' => (x =? y) && starts_with p' s'
  | _ :: _, [] => false
  end.

(** [str::ends_with(&str)] *)
Definition ends_with (p s : list N) : bool := starts_with (rev p) (rev s).

(** [str::contains(&str)] *)
Fixpoint contains (p s : list N) : bool :=
  starts_with p s || match s with [] => false | _ :: r => contains p r end.

(** [s.replace(p, "")] for a two-character pattern [p] (yaml.rs:44, 46):
    all non-overlapping occurrences, left to right. *)
Fixpoint remove2 (a b : N) (s : str) : str :=
  match s with
  | x :: ((y :: r) as t) =>
    if (x =? a) && (y =? b) then remove2 a b r else x :: remove2 a b t
  | _ => s
  end.

(** [str::trim_end_matches(".0")] (grammar.rs:64): strips the suffix as many
    times as it occurs; works on the reversed text. *)
Fixpoint strip_rev_dot0 (r : list N) : list N :=
  match r with
  | x :: y :: r' => if (x =? 48) && (y =? 46) then strip_rev_dot0 r' else r
  | _ => r
  end.
Definition trim_end_dot0 (s : str) : str := rev (strip_rev_dot0 (rev s)).

(** [slice::split(|c| *c == b'\n')] (indicator.rs:24): always at least one
    piece. *)
Fixpoint split_nl (l : list N) : list (list N) :=
  match l with
  | [] => [[]]
  | c :: r =>
    if c =? 10 then [] :: split_nl r
    else match split_nl r with
         | [] => [[c]]
         | p :: ps => (c :: p) :: ps
         end
  end.

(** [str::lines] (dumper.rs:71, 74): split after each LF; a terminating LF, and
    a CR before it, are removed; a last line without LF keeps its CR; no empty
    last line. *)
Definition strip_cr (l : str) : str :=
  match rev l with
  | c :: r => if c =? 13 then rev r else l
  | [] => l
  end.
Fixpoint lines_of (pieces : list (list N)) : list str :=
  match pieces with
  | [] => []
  | [last] => match last with [] => [] | _ => [last] end
  | p :: ps => strip_cr p :: lines_of ps
  end.
Definition lines (s : str) : list str := lines_of (split_nl s).

(** [str::repeat] / [" ".repeat(n)] *)
Fixpoint repeat_str (n : nat) (s : str) : str :=
  match n with O => [] | S n' => s ++ repeat_str n' s end.

(** [[String]::join(sep)] *)
Fixpoint join (sep : str) (l : list str) : str :=
  match l with
  | [] => []
  | [x] => x
  | x :: r => x ++ sep ++ join sep r
  end.

(** ** Decimal output: [ToString]/[Display] of integers (yaml.rs:208,
    indicator.rs:28) *)
Fixpoint uint_str (d : Decimal.uint) : str :=
  match d with
  | Decimal.Nil => []
  | Decimal.D0 d => 48 :: uint_str d
  | Decimal.D1 d => 49 :: uint_str d
  | Decimal.D2 d => 50 :: uint_str d
  | Decimal.D3 d => 51 :: uint_str d
  | Decimal.D4 d => 52 :: uint_str d
  | Decimal.D5 d => 53 :: uint_str d
  | Decimal.D6 d => 54 :: uint_str d
  | Decimal.D7 d => 55 :: uint_str d
  | Decimal.D8 d => 56 :: uint_str d
  | Decimal.D9 d => 57 :: uint_str d
  end.
Definition show_N (n : N) : str := uint_str (N.to_uint n).
Definition show_Z (z : Z) : str :=
  match z with
  | Z0 => [48]
  | Zpos p => show_N (Npos p)
  | Zneg p => 45 :: show_N (Npos p)
  end.

(** ** Sorted association lists: [BTreeMap<String, V>] *)
Fixpoint bt_get {V} (k : str) (m : list (str * V)) : option V :=
  match m with
  | [] => None
  | (k', v) :: r => if str_eqb k k' then Some v else bt_get k r
  end.
Fixpoint bt_insert {V} (k : str) (v : V) (m : list (str * V)) : list (str * V) :=
  match m with
  | [] => [(k, v)]
  | (k', v') :: r =>
    if str_eqb k k' then (k', v) :: r
    else if str_ltb k k' then (k, v) :: m
    else (k', v') :: bt_insert k v r
  end.
