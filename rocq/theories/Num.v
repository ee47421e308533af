(** * Num: the numeric readings of scalars.
    Models [to_i64] and [to_f64] of src/yaml.rs:42-54, and the standard library
    functions [i64::from_str_radix], [str::parse::<i64>] and
    [str::parse::<f64>] they call. *)
From Verif Require Export Base.
Open Scope Z_scope.

Definition i64_min : Z := - 9223372036854775808.
Definition i64_max : Z := 9223372036854775807.
Definition in_i64 (z : Z) : bool := (i64_min <=? z) && (z <=? i64_max).

(** [char::to_digit(radix)] for radix <= 16. *)
Definition digit_val (radix : Z) (c : N) : option Z :=
  let v :=
    if is_digit c then Some (Z.of_N c - 48)
    else if ((97 <=? c) && (c <=? 102))%N then Some (Z.of_N c - 87)
    else if ((65 <=? c) && (c <=? 70))%N then Some (Z.of_N c - 55)
    else None in
  match v with
  | Some d => if d <? radix then Some d else None
  | None => None
  end.

Fixpoint digits_val (radix : Z) (acc : Z) (s : str) : option Z :=
  match s with
  | [] => Some acc
  | c :: r =>
    match digit_val radix c with
    | Some d => digits_val radix (acc * radix + d) r
    | None => None
    end
  end.

(** [i64::from_str_radix]: optional sign, at least one digit, all digits valid,
    value in range.  Simplification: Rust checks for overflow after every digit,
    the model once at the end; the magnitudes only grow, so both reject the same
    strings. *)
Definition from_str_radix (radix : Z) (s : str) : option Z :=
  let r :=
    match s with
    | [] => None
    | 43%N :: [] => None
    | 45%N :: [] => None
    | 43%N :: ds => digits_val radix 0 ds
    | 45%N :: ds => option_map Z.opp (digits_val radix 0 ds)
    | ds => digits_val radix 0 ds
    end in
  match r with
  | Some z => if in_i64 z then Some z else None
  | None => None
  end.

(** src/yaml.rs:42-50 [to_i64]; [None] is [Err(ParseIntError)]. *)
Definition to_i64 (s : str) : option Z :=
  if contains (lit "0x") s then from_str_radix 16 (remove2 (chr "0") (chr "x") s)
  else if contains (lit "0o") s then from_str_radix 8 (remove2 (chr "0") (chr "o") s)
  else from_str_radix 10 s.

(** ** binary64

    [FFin neg m e] is (-1)^neg * m * 2^e with m < 2^53, and m >= 2^52 or
    e = -1074 (canonical form; zero is m = 0). *)
Inductive f64 : Type :=
| FNaN
| FInf (neg : bool)
| FFin (neg : bool) (m : N) (e : Z).

(** [f64::is_nan] *)
Definition f_is_nan (x : f64) : bool := match x with FNaN => true | _ => false end.

(** IEEE equality, [==] on [f64] *)
Definition f_eqb (x y : f64) : bool :=
  match x, y with
  | FInf a, FInf b => Bool.eqb a b
  | FFin a m e, FFin b m' e' =>
    ((m =? 0)%N && (m' =? 0)%N)
    || (Bool.eqb a b && (m =? m')%N && (e =? e')%Z)
  | _, _ => false
  end.

(** Round [num/den] (both positive) to the nearest integer, ties to even. *)
Definition round_half_even (num den : Z) : Z :=
  let q := num / den in
  let r := num - q * den in
  if (2 * r <? den)%Z then q
  else if (den <? 2 * r)%Z then q + 1
  else if Z.even q then q else q + 1.

(** Nearest binary64 to num/den > 0. *)
Definition round_pos (num den : Z) : option (N * Z) :=
  (* the exponent e with 2^52 <= num/den/2^e < 2^53, or one more *)
  let e0 := Z.log2 num - Z.log2 den - 53 in
  let scaled e := if (0 <=? e)%Z then (num, den * 2 ^ e) else (num * 2 ^ (- e), den) in
  let fits e := let '(n, d) := scaled e in (n <? d * 2 ^ 53)%Z in
  let e1 := if fits e0 then e0 else e0 + 1 in
  let e := Z.max e1 (-1074) in
  let '(n, d) := scaled e in
  let m := round_half_even n d in
  let '(m, e) := if (m =? 2 ^ 53)%Z then (2 ^ 52, e + 1) else (m, e) in
  if (971 <? e)%Z then None else Some (Z.to_N m, e).

Definition mk_f64 (neg : bool) (mant : Z) (exp10 : Z) : f64 :=
  if (mant =? 0)%Z then FFin neg 0 (-1074)
  else
    let '(num, den) :=
      if (0 <=? exp10)%Z then (mant * 10 ^ exp10, 1) else (mant, 10 ^ (- exp10)) in
    match round_pos num den with
    | Some (m, e) => FFin neg m e
    | None => FInf neg
    end.

(** longest prefix of decimal digits, and the rest *)
Fixpoint span_digits (s : str) : str * str :=
  match s with
  | c :: r => if is_digit c then let '(d, t) := span_digits r in (c :: d, t) else ([], s)
  | [] => ([], [])
  end.

Definition lower (c : N) : N := if ((65 <=? c) && (c <=? 90))%N then (c + 32)%N else c.

Definition dec_val (ds : str) : Z :=
  match digits_val 10 0 ds with Some z => z | None => 0 end.

(** exponent part: nothing, or [eE] sign? digit+ to the end of the text *)
Definition exp_val (s : str) : option Z :=
  match s with
  | [] => Some 0
  | c :: r =>
    if ((c =? 101) || (c =? 69))%N then
      let '(neg, ds) :=
        match r with
        | 45%N :: t => (true, t)
        | 43%N :: t => (false, t)
        | t => (false, t)
        end in
      match ds with
      | [] => None
      | _ => if forallb is_digit ds
             then Some (if (neg : bool) then - dec_val ds else dec_val ds) else None
      end
    else None
  end.

(** The grammar of [<f64 as FromStr>::from_str]:
    Sign? (inf | infinity | nan | (Digit+ | Digit+ . Digit* | Digit* . Digit+) Exp?) *)
Definition f64_number (neg : bool) (s : str) : option f64 :=
  let '(ip, r) := span_digits s in
  let '(fp, r') :=
    match r with
    | 46%N :: t => span_digits t
    | _ => ([], r)
    end in
  match ip, fp with
  | [], [] => None
  | _, _ =>
    match exp_val r' with
    | Some e => Some (mk_f64 neg (dec_val (ip ++ fp)) (e - Z.of_nat (List.length fp)))
    | None => None
    end
  end.

(** src/yaml.rs:52-54 [to_f64]; [None] is [Err(ParseFloatError)].  The value is
    the correctly rounded one, as Rust documents. *)
Definition to_f64 (s : str) : option f64 :=
  let '(neg, t) :=
    match s with
    | 45%N :: t => (true, t)
    | 43%N :: t => (false, t)
    | t => (false, t)
    end in
  let l := map lower t in
  if str_eqb l (lit "inf") || str_eqb l (lit "infinity") then Some (FInf neg)
  else if str_eqb l (lit "nan") then Some FNaN
  else f64_number neg t.

(** [n as f64] for an i64 (node.rs:248, de.rs:358): nearest, ties to even. *)
Definition f64_of_Z (z : Z) : f64 := mk_f64 (z <? 0) (Z.abs z) 0.
