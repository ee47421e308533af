(** * Single: single-precision numbers (f32)

    The last serde method of the crate: [deserialize_f32] and [serialize_f32].
    Reading goes through [f64], so a decimal is rounded twice. *)
From Verif Require Export Serde Untagged.
Open Scope Z_scope.

(** binary32: [SFin neg m e] is (-1)^neg * m * 2^e with m < 2^24, and m >= 2^23 or
    e = -149 (canonical form; zero is m = 0). *)
Inductive f32 : Type :=
| SNaN
| SInf (neg : bool)
| SFin (neg : bool) (m : N) (e : Z).

(** Nearest binary32 to num/den > 0, ties to even: Rust's [as f32]. *)
Definition round_pos32 (num den : Z) : option (N * Z) :=
  (* the exponent e with 2^23 <= num/den/2^e < 2^24, or one more *)
  let e0 := Z.log2 num - Z.log2 den - 24 in
  let scaled e := if (0 <=? e)%Z then (num, den * 2 ^ e) else (num * 2 ^ (- e), den) in
  let fits e := let '(n, d) := scaled e in (n <? d * 2 ^ 24)%Z in
  let e1 := if fits e0 then e0 else e0 + 1 in
  let e := Z.max e1 (-149) in
  let '(n, d) := scaled e in
  let m := round_half_even n d in
  let '(m, e) := if (m =? 2 ^ 24)%Z then (2 ^ 23, e + 1) else (m, e) in
  if (104 <? e)%Z then None else Some (Z.to_N m, e).
Definition mk_f32 (neg : bool) (num den : Z) : f32 :=
  if (num =? 0)%Z then SFin neg 0 (-149)
  else match round_pos32 num den with Some (m, e) => SFin neg m e | None => SInf neg end.

(** [x as f32] for an f64 (src/serde/de.rs:346) *)
Definition f64_to_f32 (x : f64) : f32 :=
  match x with
  | FNaN => SNaN
  | FInf neg => SInf neg
  | FFin neg m e => mk_f32 neg (Z.of_N m * 2 ^ Z.max e 0) (2 ^ Z.max (- e) 0)
  end.
(** [z as f32] for an i64 (src/serde/de.rs:347): one rounding *)
Definition f32_of_Z (z : Z) : f32 := mk_f32 (z <? 0) (Z.abs z) 1.

(** [x as f64] for an f32: exact *)
Definition f32_to_f64 (x : f32) : f64 :=
  match x with
  | SNaN => FNaN
  | SInf neg => FInf neg
  | SFin neg m e =>
    if (m =? 0)%N then FFin neg 0 (-1074)
    else let k := 52 - Z.log2 (Z.of_N m) in FFin neg (Z.to_N (Z.of_N m * 2 ^ k)) (e - k)
  end.

(** src/serde/de.rs:341-350 [deserialize_f32] *)
Definition de_f32 (n : node) : dres f32 :=
  match n_yaml n with
  | YFloat s => match to_f64 s with Some x => DOk (f64_to_f32 x) | None => DPanic end
  | YInt s => match to_i64 s with Some z => DOk (f32_of_Z z) | None => DPanic end
  | _ => unexpected n
  end.
(** src/serde/ser.rs:183 [serialize_f32] with yaml.rs:205-210 [From<f32>]: the text
    of [to_string], a parameter. *)
Definition ser_f32 (show32 : f32 -> str) (x : f32) : node := node_from (YFloat (show32 x)).

(** The number of a [Float] of [serde::Stringify] (src/serde/stringify.rs:36), which
    [Untagged] represents by what it is rounded from. *)
Definition f32_number (x : f32_of) : f32 :=
  match x with FromInt z => f32_of_Z z | FromFloat y => f64_to_f32 y end.
