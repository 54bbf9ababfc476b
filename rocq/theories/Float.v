(** IEEE 754 numbers: the f32 and f64 operations of the crate, by [SpecFloat] of the standard
    library (round to nearest, ties to even; all NaNs are one). *)

From Coq Require Export SpecFloat.
From Verif Require Import Base Text.

Definition f32_add := SFadd 24 128.
Definition f32_sub := SFsub 24 128.
Definition f32_mul := SFmul 24 128.
Definition f64_sub := SFsub 53 1024.
Definition f64_mul := SFmul 53 1024.
Definition f64_div := SFdiv 53 1024.

(** [x as f32], [x as f64] of an integer. *)
Definition f32_of_int (z : Z) : spec_float := binary_normalize 24 128 z 0 false.
Definition f64_of_int (z : Z) : spec_float := binary_normalize 53 1024 z 0 false.

(** [x as f32] of an f64. *)
Definition f32_of_f64 (x : spec_float) : spec_float :=
  match x with
  | S754_finite s mant e => binary_normalize 24 128 (if s then Zneg mant else Zpos mant) e s
  | _ => x
  end.

(** The number with the bit pattern [b]: [mw] bits of mantissa, [ew] of exponent. *)
Definition float_of_bits (mw ew b : Z) : spec_float :=
  let s := Z.testbit b (mw + ew) in
  let ex := (b / 2 ^ mw) mod 2 ^ ew in
  let ma := b mod 2 ^ mw in
  let emin := 3 - 2 ^ (ew - 1) - (mw + 1) in
  if ex =? 0 then match ma with Zpos p => S754_finite s p emin | _ => S754_zero s end
  else if ex =? 2 ^ ew - 1 then (if ma =? 0 then S754_infinity s else S754_nan)
  else match ma + 2 ^ mw with Zpos p => S754_finite s p (ex - 1 + emin) | _ => S754_nan end.
Definition f32_of_bits := float_of_bits 23 8.
Definition f64_of_bits := float_of_bits 52 11.

(** The integer part of a number towards zero, and towards minus infinity; the conversions to
    integer types saturate and give 0 for a NaN. *)
Definition clamp (lo hi z : Z) : Z := Z.max lo (Z.min hi z).
Definition magnitude_floor (mant : positive) (e : Z) : Z :=
  if 0 <=? e then Zpos mant * 2 ^ e else Zpos mant / 2 ^ (- e).
(** [x as i32]. *)
Definition f_as_i32 (x : spec_float) : Z :=
  match x with
  | S754_finite s mant e =>
    clamp (- 2 ^ 31) (2 ^ 31 - 1) (let f := magnitude_floor mant e in if s then - f else f)
  | S754_infinity s => if s then - 2 ^ 31 else 2 ^ 31 - 1
  | _ => 0
  end.
(** [x.floor() as usize]. *)
Definition f_floor_usize (x : spec_float) : Z :=
  match x with
  | S754_finite s mant e => if s then 0 else clamp 0 (2 ^ 64 - 1) (magnitude_floor mant e)
  | S754_infinity s => if s then 0 else 2 ^ 64 - 1
  | _ => 0
  end.

(** [f64::mul_add]: [x * y + z] rounded once. *)
Definition sf_sign (x : spec_float) : bool :=
  match x with S754_zero s | S754_infinity s | S754_finite s _ _ => s | S754_nan => false end.
Definition sf_mant (x : spec_float) : Z :=
  match x with S754_finite s mant _ => if s then Zneg mant else Zpos mant | _ => 0 end.
Definition sf_exp (x : spec_float) : Z := match x with S754_finite _ _ e => e | _ => 0 end.
Definition f64_mul_add (x y z : spec_float) : spec_float :=
  let s := xorb (sf_sign x) (sf_sign y) in
  match x, y, z with
  | S754_nan, _, _ | _, S754_nan, _ | _, _, S754_nan => S754_nan
  | S754_infinity _, S754_zero _, _ | S754_zero _, S754_infinity _, _ => S754_nan
  | S754_infinity _, _, S754_infinity sz | _, S754_infinity _, S754_infinity sz =>
    if Bool.eqb s sz then S754_infinity s else S754_nan
  | S754_infinity _, _, _ | _, S754_infinity _, _ => S754_infinity s
  | _, _, S754_infinity sz => S754_infinity sz
  | _, _, _ =>
    let e := Z.min (sf_exp x + sf_exp y) (sf_exp z) in
    binary_normalize 53 1024
      (sf_mant x * sf_mant y * 2 ^ (sf_exp x + sf_exp y - e) + sf_mant z * 2 ^ (sf_exp z - e))
      e (s && sf_sign z)
  end.

(** [x.round() as T] for an unsigned type with maximum [hi]: to the nearest integer, halves away from 0. *)
Definition magnitude_round (mant : positive) (e : Z) : Z :=
  if 0 <=? e then Zpos mant * 2 ^ e else (2 * Zpos mant + 2 ^ (- e)) / 2 ^ (1 - e).
Definition f_round_unsigned (hi : Z) (x : spec_float) : Z :=
  match x with
  | S754_finite s mant e => if s then 0 else clamp 0 hi (magnitude_round mant e)
  | S754_infinity s => if s then 0 else hi
  | _ => 0
  end.

(** The bit pattern of a number ([to_bits]); of a NaN that of the constant [NAN]. *)
Definition bits_of_float (mw ew : Z) (x : spec_float) : Z :=
  let sign (s : bool) := if s then 2 ^ (mw + ew) else 0 in
  match x with
  | S754_zero s => sign s
  | S754_infinity s => sign s + (2 ^ ew - 1) * 2 ^ mw
  | S754_nan => (2 ^ ew - 1) * 2 ^ mw + 2 ^ (mw - 1)
  | S754_finite s mant e =>
    sign s + (if Zpos mant <? 2 ^ mw then Zpos mant
              else (e - (3 - 2 ^ (ew - 1) - (mw + 1)) + 1) * 2 ^ mw + (Zpos mant - 2 ^ mw))
  end.
Definition bits_of_f32 := bits_of_float 23 8.

(** The f64 nearest to the decimal number of a header ([str::parse::<f64>], and [as f64] for the
    integers): exact quotient, rounded once. *)
Definition f64_of_dec (neg : bool) (mant e : Z) : spec_float :=
  match mant with
  | Zpos p =>
    if 0 <=? e then binary_normalize 53 1024 (let n := Zpos p * 10 ^ e in if neg then - n else n) 0 neg
    else match 10 ^ (- e) with
         | Zpos q => let '(mz, ez, lz) := SFdiv_core_binary 53 1024 (Zpos p) 0 (Zpos q) 0 in
                     binary_round_aux 53 1024 neg mz ez lz
         | _ => S754_nan
         end
  | _ => S754_zero neg
  end.
Definition f64_of_fval (v : fval) : spec_float :=
  match v with FDec neg mant e => f64_of_dec neg mant e | FInf neg => S754_infinity neg | FNan => S754_nan end.
