(** Real-number meaning of floats, by the definitions of rounding of the Flocq library. *)

From Coq Require Import Reals.
From Flocq Require Import Core BinarySingleNaN.
From Verif Require Import Base Text Float.
Open Scope R_scope.

(** Round to nearest, ties to even, in a binary format with [prec] bits and exponents below [emax]:
    (53, 1024) is f64, (24, 128) is f32. *)
Definition rnd (prec emax : Z) (r : R) : R := round radix2 (FLT_exp (3 - emax - prec) prec) ZnearestE r.

(** A finite number of the format and its value. *)
Definition number (prec emax : Z) (x : spec_float) (r : R) : Prop :=
  valid_binary prec emax x = true /\ is_finite_SF x = true /\ SF2R radix2 x = r.

(** [x] is the result of an operation whose exact result is [r]; [neg] is its sign, that of a zero included.
    Results beyond the greatest number become infinite. *)
Definition rounded (prec emax : Z) (r : R) (neg : bool) (x : spec_float) : Prop :=
  (Rabs (rnd prec emax r) < bpow radix2 emax ->
   number prec emax x (rnd prec emax r) /\ sign_SF x = neg) /\
  (bpow radix2 emax <= Rabs (rnd prec emax r) -> x = S754_infinity neg).

(** The decimal number (-1)^neg * mant * 10^e. *)
Definition ten : radix := Build_radix 10 (eq_refl true).
Definition decimal (neg : bool) (mant e : Z) : R := F2R (Float ten (if neg then - mant else mant)%Z e).

(** The result does not overflow. *)
Definition fits (prec emax : Z) (r : R) : Prop := Rabs (rnd prec emax r) < bpow radix2 emax.

(** The value of the bit pattern [b] with [mw] bits of mantissa and [ew] of exponent, if it is that of a number. *)
Definition sign_of (neg : bool) : R := if neg then -1 else 1.
Definition pattern (mw ew : Z) (b : Z) (r : R) : Prop :=
  exists (neg : bool) ex ma, (0 <= ex < 2 ^ ew - 1)%Z /\ (0 <= ma < 2 ^ mw)%Z /\
    b = ((if neg then 2 ^ (mw + ew) else 0) + ex * 2 ^ mw + ma)%Z /\
    r = sign_of neg * (if (ex =? 0)%Z then IZR ma * bpow radix2 (2 - 2 ^ (ew - 1) - mw)
                       else IZR (2 ^ mw + ma) * bpow radix2 (1 - 2 ^ (ew - 1) - mw + ex)).

(** The value of a pixel of a tile with scale [s] and zero [z], in f32 arithmetic: plain, and dithered with
    the number [t]. *)
Definition plain_value (s z : R) (v : Z) : R := let n := rnd 24 128 in n (n (n (IZR v) * s) + z).
Definition dithered_value (s z t : R) (v : Z) : R := let n := rnd 24 128 in n (n (n (n (n (IZR v) - t) + / 2) * s) + z).
(** Neither the product nor the sum overflows. *)
Definition plain_fits (s z : R) (v : Z) : Prop :=
  let n := rnd 24 128 in fits 24 128 (n (IZR v) * s) /\ fits 24 128 (n (n (IZR v) * s) + z).
Definition dithered_fits (s z t : R) (v : Z) : Prop :=
  let n := rnd 24 128 in let a := n (n (n (IZR v) - t) + / 2) in fits 24 128 (a * s) /\ fits 24 128 (n (a * s) + z).
