(** Properties of tile-compressed float images written with subtractive dithering (C67), which is what
    compressing programs do unless told otherwise: how close the pixels read are to the pixels written. *)

From Coq Require Import String List Reals Lra.
From Verif Require Import Base Utf8 Text Card Reader Header Xtension Bytes Fits ImageIt BinTable Rice Float Tile.
From Verif Require Import SpecUtf8 SpecCard SpecHeader SpecXt SpecFits SpecImage SpecBin SpecRice SpecTile SpecWrite SpecWriteTable SpecWriteTile SpecReal.
From Verif Require Import WriteProofs6 WriteProofs7 WriteFloatProofs WriteProofs8 WriteProofs9 WriteFloatProofs2.
From Flocq Require Import Core BinarySingleNaN.
Local Open Scope string_scope.
Local Open Scope list_scope.
Local Open Scope R_scope.

(** A dithering writer takes for [x] a nearest integer to [(x - o) / s + r - 1/2], where [s] is the scale,
    [o] the zero and [r] the random number of the pixel, between 0 and 1 (standard, section 10.2.1).
    Such an integer is there for every [x]: *)
Theorem C67_nearest_step : forall s o r x, s <> 0 ->
  Rabs (x - ((IZR (ZnearestE ((x - o) / s + r - / 2)) - r + / 2) * s + o)) <= Rabs s / 2.
Proof. exact nearest_dithered_step. Qed.
Print Assumptions C67_nearest_step.

(** The pixel the crate gives for it is at most one step from [x], but for the roundings of f32.  Missing
    for the full claim: half a step, which the standard's restoring has; see the refutation below. *)
Theorem C67_one_step_partial : forall p k v s o r x,
  fp_blank p k <> Some v -> (- 2 ^ 63 <= v < 2 ^ 63)%Z ->
  number 24 128 (fp_scale p k) s -> number 24 128 (fp_zero p k) o -> plain_fits s o v ->
  0 <= r <= 1 -> Rabs (x - ((IZR v - r + / 2) * s + o)) <= Rabs s / 2 ->
  exists y, number 24 128 (float_value p k v) y /\
    Rabs (y - x) <= Rabs s + 5 * bpow radix2 (-24) * (Rabs (IZR v * s) + Rabs o) + bpow radix2 (-148).
Proof. exact dithered_value_error. Qed.
Print Assumptions C67_one_step_partial.

(** The same of the pixels of an image got from a file with any other HDUs, whatever ZQUANTIZ and ZDITHER0 say. *)
Theorem C67_image_close_partial : forall gz m d pre s post p l f,
  octets d -> file_kinds (pre ++ (HBinTable, s) :: post) -> Forall (accepted m) pre -> fpicture_written gz m p s ->
  slabs (zp_dims (fp_ints p)) (zp_tiles (fp_ints p)) ->
  d = file_bytes (pre ++ (HBinTable, s) :: post) -> (len d < 2 ^ 63)%Z ->
  yields m (opened d) l f -> List.length l = Datatypes.S (List.length pre) ->
  exists l' h t st fuel0, l = l' ++ [IOk h] /\ h_xt h = XtBin t /\ get_tiles m f (h_values h) t = Some (Ok st) /\
    forall fuel n i, (fuel0 <= fuel)%nat -> (0 <= i < len (zp_pixels (fp_ints p)))%Z -> (i < Z.of_nat n)%Z ->
      let v := nth (Z.to_nat i) (zp_pixels (fp_ints p)) 0%Z in let k := (i / product (zp_tiles (fp_ints p)))%Z in
      let got := nth_error (fst (tiles_run gz m fuel st n)) (Z.to_nat i) in
      (fp_blank p k = Some v -> got = Some (PixelOf (PFloat S754_nan))) /\
      forall sc o r x, fp_blank p k <> Some v -> number 24 128 (fp_scale p k) sc -> number 24 128 (fp_zero p k) o -> plain_fits sc o v ->
        0 <= r <= 1 -> Rabs (x - ((IZR v - r + / 2) * sc + o)) <= Rabs sc / 2 ->
        exists y a, got = Some (PixelOf (PFloat y)) /\ number 24 128 y a /\
          Rabs (a - x) <= Rabs sc + 5 * bpow radix2 (-24) * (Rabs (IZR v * sc) + Rabs o) + bpow radix2 (-148).
Proof. exact fpicture_dithered. Qed.
Print Assumptions C67_image_close_partial.

(** The random number of the standard for pixel [i] of the tile in row [row] (both counted from 0), as
    long as its table of 10000 numbers lasts (appendix I). *)
Definition standard_entry (row z0 : Z) : Z := (500 * seed ((row + z0 - 1) mod 10000) / (2 ^ 31 - 1))%Z.
Definition standard_random (row z0 i : Z) : R := IZR (seed (standard_entry row z0 + i)) / IZR (2 ^ 31 - 1).

(** An image of two tiles with the integers 4 and -2147483646, the scale 0.5 and the zero 0, dithered with the seed 1. *)
Definition ex_dithered (told : Z -> dithering) : quantised_image :=
  mk_quantised
    (mk_zpicture (ZRice 1 4) BF32 [(2, Some 1)]%Z [(chars "BLOCKSIZE", 1); (chars "BYTEPIX", 4)]%Z [4; -2147483646]%Z)
    (fun _ => 4602678819172646912%Z) (fun _ => 0%Z) (Some (-2147483648)%Z) (Some (told 1%Z)).
Definition ex_raw (k : Z) : list (coding * list Z) := [(Raw, [if (k =? 0)%Z then 4 else -2147483646]%Z)].

Example C67_ex_ok : forall m told, told = Dither1 \/ told = Dither2 ->
  zwritable_ok m (WQuantised (ex_dithered told) 1 ex_raw) /\
  slabs (zp_dims (qi_ints (ex_dithered told))) (zp_tiles (qi_ints (ex_dithered told))).
Proof.
  Local Open Scope Z_scope.
  intros m told T.
  assert (K : forall k, 0 <= k < product (grid (zp_dims (qi_ints (ex_dithered told))) (zp_tiles (qi_ints (ex_dithered told)))) -> k = 0 \/ k = 1).
  { change (product (grid (zp_dims (qi_ints (ex_dithered told))) (zp_tiles (qi_ints (ex_dithered told))))) with 2. lia. }
  split; [split; [|right]|].
  - split; [left; reflexivity|]. split; [repeat constructor; vm_compute; try discriminate; reflexivity|]. split; [|split].
    + unfold codings_ok. split; [vm_compute; discriminate|]. split; [repeat constructor|]. split; [reflexivity|]. split; [reflexivity|]. split; [lia|].
      split; [change (whole_tiles [2] [1]); repeat constructor; cbn; lia|]. split; [vm_compute; discriminate|]. split; [reflexivity|].
      split; [|split; vm_compute; reflexivity].
      intros k R. destruct (K k R) as [->| ->]; (split; [reflexivity|]); cbn; repeat split; try lia; repeat constructor; vm_compute; discriminate.
    + intro k. cbn. lia.
    + cbn. split; [lia|]. destruct T; subst told; cbn; lia.
  - intros k R. destruct (K k R) as [->| ->]; (split; [repeat constructor; vm_compute; try discriminate; reflexivity|]); cbn; repeat split; try lia.
  - change (slabs [2] [1]). apply (slabs_part 2 1 []); [lia|lia|reflexivity].
Qed.

(** What the crate reads from a file with that image: 4 * 0.5 and -2147483646 * 0.5. *)
Definition ex_read (m : Base.mode) (told : Z -> dithering) : list pixel_result :=
  let d := file_bytes (write_zfile (BU8, [], []) [WQuantised (ex_dithered told) 1 ex_raw]) in
  let f := snd (run m 2 (opened d)) in
  match nth_error (fst (run m 2 (opened d))) 1 with
  | Some (IOk h) =>
    match h_xt h with
    | XtBin t => match get_tiles m f (h_values h) t with Some (Ok st) => fst (tiles_run (fun _ _ => (None, [], 0)) m 9 st 3) | _ => [] end
    | _ => []
    end
  | _ => []
  end.
Lemma ex_read_is m told : told = Dither1 \/ told = Dither2 ->
  ex_read m told = [PixelOf (PFloat (f32_of_int 2)); PixelOf (PFloat (f32_of_int (-1073741823))); PixEnd].
Proof. destruct m; intros [-> | ->]; vm_compute; reflexivity. Qed.


Local Open Scope R_scope.
(** Finding: dithering is never taken back.  The standard restores the integer [v] of a pixel with the random
    number [r] as [(v - r + 1/2) * s + o].  For the first pixel of the image, with either method, the
    crate's number is further from it than 0.49 steps; no rounding is in it. *)
Theorem C67_dithering_refuted : forall m told, told = Dither1 \/ told = Dither2 ->
  let q := ex_dithered told in let p := qi_picture q in
  zwritable_ok m (WQuantised q 1 ex_raw) /\
  exists s o y a, number 24 128 (fp_scale p 0) s /\ number 24 128 (fp_zero p 0) o /\ s <> 0 /\
    nth_error (zp_pixels (qi_ints q)) 0 = Some 4%Z /\ nth_error (ex_read m told) 0 = Some (PixelOf (PFloat y)) /\ number 24 128 y a /\
    a = 4 * s + o /\ Rabs (a - ((4 - standard_random 0 1 0 + / 2) * s + o)) > 0.49 * Rabs s.
Proof.
  intros m told T q p. split; [now apply C67_ex_ok|].
  assert (N2 : number 24 128 (f32_of_int 2) 2).
  { split; [reflexivity|]. split; [reflexivity|]. vm_compute (f32_of_int 2). cbn [SF2R cond_Zopp]. unfold F2R. cbn [Fnum Fexp].
    change (bpow radix2 (-22)) with (/ IZR (Z.pow_pos 2 22)). change (Z.pow_pos 2 22) with 4194304%Z. lra. }
  exists (/ 2), 0, (f32_of_int 2), 2.
  split.
  { change (fp_scale p 0) with (f32_of_f64 (f64_of_bits 4602678819172646912)).
    split; [vm_compute; reflexivity|]. split; [vm_compute; reflexivity|].
    replace (f32_of_f64 (f64_of_bits 4602678819172646912)) with (S754_finite false 8388608 (-24)) by (vm_compute; reflexivity).
    cbn [SF2R cond_Zopp]. unfold F2R. cbn [Fnum Fexp]. change (bpow radix2 (-24)) with (/ IZR (Z.pow_pos 2 24)).
    change (Z.pow_pos 2 24) with 16777216%Z. lra. }
  split.
  { change (fp_zero p 0) with (f32_of_f64 (f64_of_bits 0)).
    replace (f32_of_f64 (f64_of_bits 0)) with (S754_zero false) by (vm_compute; reflexivity). repeat split. }
  split; [lra|]. split; [reflexivity|]. split; [now rewrite ex_read_is|]. split; [exact N2|]. split; [lra|].
  unfold standard_random. change (seed (standard_entry 0 1 + 0)) with 16807%Z. change (2 ^ 31 - 1)%Z with 2147483647%Z.
  rewrite (Rabs_pos_eq (/ 2)) by lra. rewrite <- Rabs_Ropp. rewrite Rabs_pos_eq by lra. lra.
Qed.
Print Assumptions C67_dithering_refuted.

(** Finding: with SUBTRACTIVE_DITHER_2 the integer -2147483646 stands for the pixel 0 exactly.  The crate
    gives -1073741823 (as f32), the integer times the scale. *)
Theorem C67_zero_refuted : forall m,
  let q := ex_dithered Dither2 in
  zwritable_ok m (WQuantised q 1 ex_raw) /\
  exists y a, nth_error (zp_pixels (qi_ints q)) 1 = Some (-2147483646)%Z /\
    nth_error (ex_read m Dither2) 1 = Some (PixelOf (PFloat y)) /\ number 24 128 y a /\ a <= -1000000000.
Proof.
  intros m q. split; [apply C67_ex_ok; auto|]. exists (f32_of_int (-1073741823)), (-1073741824).
  split; [reflexivity|]. split; [rewrite ex_read_is; auto|]. split; [|lra].
  split; [vm_compute; reflexivity|]. split; [vm_compute; reflexivity|].
  replace (f32_of_int (-1073741823)) with (S754_finite true 8388608 7) by (vm_compute; reflexivity).
  cbn [SF2R cond_Zopp]. unfold F2R. cbn [Fnum Fexp Z.opp]. change (bpow radix2 7) with (IZR (Z.pow_pos 2 7)).
  change (Z.pow_pos 2 7) with 128%Z. lra.
Qed.
Print Assumptions C67_zero_refuted.
