(** Numbers in real arithmetic (C55, C56).  [rnd prec emax] rounds a real number to the nearest one of a binary
    format, ties to even ([SpecReal], by the definitions of Flocq); (53, 1024) is f64 and (24, 128) is f32.
    [number prec emax x r] says that the float [x] is the real number [r].  These theorems use the axioms of the
    real numbers of the standard library. *)

From Coq Require Import String Reals Lra.
From Verif Require Import Base Text Card Reader Header Xtension Bytes Fits ImageIt BinTable Rice Float Tile ImageInt.
From Verif Require Import SpecCard SpecXt SpecFits SpecImage SpecBin SpecRice SpecTile SpecImageInt SpecReal.
From Verif Require Import FloatProofs FloatProofs2 FloatProofs3 FloatProofs4 Prop_Tile.
From Flocq Require Import Core BinarySingleNaN.
Open Scope R_scope.

(** ** C55: header reals *)

(** A real written in a header: the value read is the f64 nearest to the decimal number, whatever the number of
    digits and the exponent, infinite if that is beyond the greatest f64; the sign is kept, also of 0. *)
Theorem C55_nearest : forall kw lead s ip f e trail comment,
  ordinary_keyword kw ->
  Forall digit ip -> Forall digit (frac_digits f) -> ip ++ frac_digits f <> [] -> expo_ok e ->
  (f <> None \/ e <> NoExp) -> opt_printable comment ->
  exists v, parse_card (value_record kw (value_field lead (real_literal s ip f e) trail comment))
            = Ok (CValue kw (VFloat v (option_map rtrim comment))) /\
    rounded 53 1024 (decimal (is_neg s) (dec_value (ip ++ frac_digits f)) (expo_value e - len (frac_digits f)))
            (is_neg s) (f64_of_fval v).
Proof. exact real_nearest. Qed.
Print Assumptions C55_nearest.

(** An f64 written with at least 17 significant digits, correctly rounded, is read back as the same f64. *)
Theorem C55_seventeen_digits : forall kw lead s ip f e trail comment x r,
  ordinary_keyword kw ->
  Forall digit ip -> Forall digit (frac_digits f) -> ip ++ frac_digits f <> [] -> expo_ok e ->
  (f <> None \/ e <> NoExp) -> opt_printable comment ->
  let mant := dec_value (ip ++ frac_digits f) in let ex := (expo_value e - len (frac_digits f))%Z in
  number 53 1024 x r -> (10 ^ 16 <= mant)%Z -> Rabs (decimal (is_neg s) mant ex - r) <= / 2 * bpow ten ex ->
  exists v, parse_card (value_record kw (value_field lead (real_literal s ip f e) trail comment))
            = Ok (CValue kw (VFloat v (option_map rtrim comment))) /\ f64_of_fval v = x.
Proof. exact real_back. Qed.
Print Assumptions C55_seventeen_digits.

(** An integer written in a header and asked for as f64, within the range of i64 or beyond. *)
Theorem C55_integer : forall kw lead s ds trail comment,
  ordinary_keyword kw -> Forall digit ds -> ds <> [] -> opt_printable comment ->
  let n := apply_sign s (dec_value ds) in
  exists v x, parse_card (value_record kw (value_field lead (int_literal s ds) trail comment)) = Ok (CValue kw v) /\
    de_f64 v = Ok x /\ rounded 53 1024 (IZR n) (n <? 0)%Z (f64_of_fval x).
Proof. exact integer_nearest. Qed.
Print Assumptions C55_integer.

(** 0.1 is 7205759403792794 * 2^-56; a tie goes to the even neighbour; the smallest number, and half of it; overflow. *)
Example C55_ex :
  parse_card (value_record (chars "CDELT1") (value_field 1 (real_literal Plus [0%Z] (Some [1%Z]) NoExp) 0 None))
    = Ok (CValue (chars "CDELT1") (VFloat (FDec false 1 (-1)) None)) /\
  f64_of_fval (FDec false 1 (-1)) = S754_finite false 7205759403792794 (-56) /\
  f64_of_fval (FDec true 9007199254740993 0) = S754_finite true 4503599627370496 1 /\
  f64_of_fval (FDec false 49 (-325)) = S754_finite false 1 (-1074) /\ f64_of_fval (FDec true 24 (-325)) = S754_zero true /\
  f64_of_fval (FDec false 18 307) = S754_infinity false.
Proof. vm_compute. repeat split. Qed.
(** 17 digits: 0.1 again. *)
Example C55_seventeen_ex :
  let x := S754_finite false 7205759403792794 (-56) in let r := 7205759403792794 * bpow radix2 (-56) in
  number 53 1024 x r /\ (10 ^ 16 <= dec_value [1; 0; 0; 0; 0; 0; 0; 0; 0; 0; 0; 0; 0; 0; 0; 0; 1]%Z)%Z /\
  Rabs (decimal false 10000000000000001 (-17) - r) <= / 2 * bpow ten (-17) /\ f64_of_fval (FDec false 10000000000000001 (-17)) = x.
Proof.
  cbv zeta. split; [|split; [vm_compute; discriminate|split; [|vm_compute; reflexivity]]].
  - split; [reflexivity|]. split; [reflexivity|]. rewrite sign_value. unfold sign_of. ring.
  - unfold decimal, F2R, Rabs. simpl. destruct (Rcase_abs _); lra.
Qed.

(** ** C56: floats in data *)

(** Bit patterns: every pattern but those of the infinities and the NaNs is the number of IEEE 754. *)
Theorem C56_bit_patterns :
  (forall b r, pattern 23 8 b r -> number 24 128 (f32_of_bits b) r) /\
  (forall b r, pattern 52 11 b r -> number 53 1024 (f64_of_bits b) r) /\
  (forall b, (0 <= b < 2 ^ 32)%Z -> (exists r, pattern 23 8 b r) \/ ~ exists r, number 24 128 (f32_of_bits b) r) /\
  (forall b, (0 <= b < 2 ^ 64)%Z -> (exists r, pattern 52 11 b r) \/ ~ exists r, number 53 1024 (f64_of_bits b) r).
Proof. exact bit_patterns. Qed.
Print Assumptions C56_bit_patterns.

(** An f64 as f32: rounded once, infinite if it does not fit, with its sign. *)
Theorem C56_f64_as_f32 : forall x r, number 53 1024 x r -> rounded 24 128 r (sign_SF x) (f32_of_f64 x).
Proof. exact f32_of_f64_rounded. Qed.
Print Assumptions C56_f64_as_f32.

Example C56_pattern_ex : pattern 23 8 3221225472 (-2) /\ pattern 23 8 1 (bpow radix2 (-149)) /\ f32_of_bits 3221225472 = S754_finite true 8388608 (-22) /\
  f32_of_f64 (S754_finite false 7205759403792794 (-56)) = S754_finite false 13421773 (-27).
Proof.
  split; [|split; [|split; vm_compute; reflexivity]].
  - exists true, 128%Z, 0%Z. do 3 (split; [lia|]). unfold sign_of. change (128 =? 0)%Z with false. cbv iota.
    change (1 - 2 ^ (8 - 1) - 23 + 128)%Z with (-22)%Z. change (2 ^ 23 + 0)%Z with 8388608%Z. simpl. lra.
  - exists false, 0%Z, 1%Z. do 3 (split; [lia|]). unfold sign_of. change (0 =? 0)%Z with true. cbv iota.
    replace (2 - 2 ^ (8 - 1) - 23)%Z with (-149)%Z by reflexivity. ring.
Qed.

(** Quantised floats without dithering: pixel [i] of row [row] of the file, if it is no blank, is the stored
    integer times the scale plus the zero of the row in f32 arithmetic. *)
Theorem C56_plain_pixels : forall gz m d f h f' t z ints scale zero blank,
  octets d -> rd_data (f_reader f) = d -> (0 <= rd_pos (f_reader f))%Z -> next m f = (IOk h, f') ->
  h_xt h = XtBin t -> bt_zimage t = Some z ->
  tiled d t (h_offset h) z -> tiles_hold gz m d t (h_offset h) z ints ->
  real_pixels (z_bitpix z) -> quantised d t (h_offset h) (h_values h) scale zero blank ->
  exists st fuel0, get_tiles m f' (h_values h) t = Some (Ok st) /\
    forall fuel n row i v s o, (fuel0 <= fuel)%nat -> (0 <= row < bt_naxis2 t)%Z -> (0 <= i)%Z ->
    nth_error (ints row) (Z.to_nat i) = Some v -> is_blank (blank row) v = false ->
    number 24 128 (scale row) s -> number 24 128 (zero row) o -> plain_fits s o v ->
    (row * product (z_tilen z) + i < Z.of_nat n)%Z ->
    exists x, nth_error (fst (tiles_run gz m fuel st n)) (Z.to_nat (row * product (z_tilen z) + i)) = Some (PixelOf (PFloat x)) /\
      number 24 128 x (plain_value s o v).
Proof. exact plain_tile. Qed.
Print Assumptions C56_plain_pixels.
(** So it differs little from the real number v * s + o. *)
Theorem C56_plain_error : forall v s o,
  Rabs (plain_value s o v - (IZR v * s + o)) <= 5 * bpow radix2 (-24) * (Rabs (IZR v * s) + Rabs o) + bpow radix2 (-148).
Proof. exact plain_error. Qed.
Print Assumptions C56_plain_error.

(** With dithering (see C41_dithered for the hypotheses): the random number of the pixel is subtracted and 1/2 added. *)
Theorem C56_dithered_pixels : forall gz m d f h f' t z ints scale zero blank,
  octets d -> rd_data (f_reader f) = d -> (0 <= rd_pos (f_reader f))%Z -> next m f = (IOk h, f') -> h_xt h = XtBin t ->
  tiled d t (h_offset h) z -> tiles_hold gz m d t (h_offset h) z ints ->
  real_pixels (z_bitpix z) -> quantised d t (h_offset h) (h_values h) scale zero blank ->
  quantiser z <> ZNoDither -> (0 <= dither_seed z < 2 ^ 63)%Z ->
  (forall row, (0 <= row < bt_naxis2 t)%Z -> Forall (fun v => is_blank (blank row) v = false) (ints row)) ->
  exists st fuel0, (let! data := get_table m f' t in pixels_new m (h_values h) t data z) = Ok st /\
    forall fuel n row i v s o, (fuel0 <= fuel)%nat -> (0 <= row < bt_naxis2 t)%Z -> (0 <= i)%Z ->
    nth_error (ints row) (Z.to_nat i) = Some v ->
    (quantiser z = ZSubtractive2 -> v <> -2147483647)%Z ->
    number 24 128 (scale row) s -> number 24 128 (zero row) o ->
    (row * product (z_tilen z) + i < Z.of_nat n)%Z ->
    exists x r, nth_error (fst (tiles_run gz m fuel st n)) (Z.to_nat (row * product (z_tilen z) + i)) = Some (PixelOf (PFloat x)) /\
      0 < r <= 1 /\
      Rabs (r - IZR (seed ((first_entry row (dither_seed z) + i) mod 10000)) / IZR (2 ^ 31 - 1)) <= bpow radix2 (-24) /\
      (dithered_fits s o r v -> number 24 128 x (dithered_value s o r v)).
Proof. exact dithered_tile. Qed.
Print Assumptions C56_dithered_pixels.
Theorem C56_dithered_error : forall v r t s o, 0 < r <= 1 -> Rabs (r - t) <= bpow radix2 (-24) ->
  Rabs (dithered_value s o r v - ((IZR v - t + / 2) * s + o))
  <= bpow radix2 (-20) * ((Rabs (IZR v) + 1) * Rabs s + Rabs o) + bpow radix2 (-148).
Proof. exact dither_error. Qed.
Print Assumptions C56_dithered_error.

(** The last pixel of C42_float_case: 70000 * 2 + 1/4. *)
Example C56_pixel_ex : number 24 128 (ex_scale 1) 2 /\ number 24 128 (ex_zero 1) (/ 4) /\ plain_fits 2 (/ 4) 70000 /\
  plain_value 2 (/ 4) 70000 = 140000.25 /\ number 24 128 (S754_finite false 8960016 (-6)) 140000.25.
Proof. exact pixel_ex. Qed.

(** Scaled samples of the image decoder (C50): 8 and 16 bits.  The integer nearest to the f64 nearest to
    v * BSCALE + BZERO (halves away from 0), limited to the unsigned type. *)
Theorem C56_small_samples : forall b sc v s z, b = BU8 \/ b = BI16 -> in_range b v ->
  number 53 1024 (sc_scale sc) s -> number 53 1024 (sc_zero sc) z -> fits 53 1024 (IZR v * s + z) ->
  exists k, le_value (image_sample b sc v) = limited 0 (if (depth b =? 1)%Z then 255 else 65535) k /\
    let y := rnd 53 1024 (IZR v * s + z) in
    Rabs (IZR k - y) <= / 2 /\ (Rabs (IZR k - y) = / 2 -> Rabs y < Rabs (IZR k)).
Proof. exact sample_small. Qed.
Print Assumptions C56_small_samples.
(** 32 and 64 bits: scale and zero are divided by the greatest value of the type, in f64; the result is an f32. *)
Theorem C56_large_samples : forall b sc v s z, b = BI32 \/ b = BI64 -> in_range b v ->
  number 53 1024 (sc_scale sc) s -> number 53 1024 (sc_zero sc) z ->
  let n := rnd 53 1024 in let top := n (IZR (if (width b =? 4)%Z then 2 ^ 31 - 1 else 2 ^ 63 - 1)) in
  let y := n (n (IZR v) * n (s / top) + n (z / top)) in
  fits 53 1024 (n (IZR v) * n (s / top) + n (z / top)) -> fits 24 128 y ->
  number 24 128 (f32_of_bits (le_value (image_sample b sc v))) (rnd 24 128 y).
Proof. exact sample_large. Qed.
Print Assumptions C56_large_samples.

Example C56_sample_ex : let sc := mk_scale (f64_of_dec false 5 (-1)) (f64_of_int 3) in
  number 53 1024 (sc_scale sc) 3 /\ number 53 1024 (sc_zero sc) (/ 2) /\ fits 53 1024 (IZR 4 * 3 + / 2) /\
  le_value (image_sample BU8 sc 4) = 13%Z /\
  f32_of_bits (le_value (image_sample BI32 sc (2 ^ 30))) = S754_finite false 12582912 (-23).
Proof. exact sample_ex. Qed.
