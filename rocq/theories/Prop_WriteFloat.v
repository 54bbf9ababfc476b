(** Properties of files with tile-compressed float images (C63): what a program following the standard
    writes is what the crate gives back, every pixel within half a step of quantisation and the roundings
    of f32.  [SpecWriteTile] holds the writing side: [fpicture_written] for every spelling the standard
    allows, [write_quantised] for a concrete writer.  The theorems about real numbers use the axioms of
    the real numbers of the standard library. *)

From Coq Require Import String List Reals Lra.
From Verif Require Import Base Utf8 Text Card Reader Header Xtension Bytes Fits ImageIt BinTable Rice Float Tile.
From Verif Require Import SpecUtf8 SpecCard SpecHeader SpecXt SpecFits SpecImage SpecBin SpecRice SpecTile SpecWrite SpecWriteTable SpecWriteTile SpecReal.
From Verif Require Import WriteProofs6 WriteProofs7 WriteFloatProofs WriteProofs8 WriteProofs9 WriteFloatProofs2.
From Flocq Require Import Core BinarySingleNaN.
Local Open Scope string_scope.
Local Open Scope list_scope.
Local Open Scope Z_scope.

(** An HDU with a compressed float image anywhere in a file: it is accepted, ... *)
Theorem C63_image_accepted : forall gz m p s, fpicture_written gz m p s -> accepted m (HBinTable, s).
Proof. exact accepted_fpicture. Qed.
Print Assumptions C63_image_accepted.

(** ... and the call of [next] that reaches it gives the compression, the pixel type, the axes and the
    tiles.  The pixels are the floats of the first tile, then those of the second, and so on, and then
    the end, for ever. *)
Theorem C63_image_read_back : forall gz m d pre s post p l f,
  octets d -> file_kinds (pre ++ (HBinTable, s) :: post) -> Forall (accepted m) pre -> fpicture_written gz m p s ->
  d = file_bytes (pre ++ (HBinTable, s) :: post) -> len d < 2 ^ 63 ->
  yields m (opened d) l f -> List.length l = S (List.length pre) ->
  exists l' h t z st fuel0, l = l' ++ [IOk h] /\ h_kind h = HBinTable /\ h_xt h = XtBin t /\
    bt_zimage t = Some z /\ zimage_of (fp_ints p) z /\
    get_tiles m f (h_values h) t = Some (Ok st) /\
    forall fuel n, (fuel0 <= fuel)%nat -> fst (tiles_run gz m fuel st n)
      = firstn n (map PixelOf (map PFloat (floats_tilewise p)) ++ repeat PixEnd n).
Proof. exact fpicture_read_back. Qed.
Print Assumptions C63_image_read_back.

(** When the tiles are rows, runs of rows, or parts of rows one after the other, the floats come in the
    order of the pixels. *)
Theorem C63_rows_in_order : forall p,
  let z := fp_ints p in
  slabs (zp_dims z) (zp_tiles z) -> whole_tiles (zp_dims z) (zp_tiles z) -> len (zp_pixels z) = product (zp_dims z) ->
  floats_tilewise p = map (fun i => float_value p (i / product (zp_tiles z)) (nth (Z.to_nat i) (zp_pixels z) 0)) (upto (len (zp_pixels z))).
Proof. exact floats_slabs. Qed.
Print Assumptions C63_rows_in_order.

(** The pixel of the integer [v] in a tile with the scale [s] and the zero [o]: NaN if it is the one for
    that, else [v * s + o] with the three roundings of f32, ... *)
Theorem C63_pixel_value : forall p k v,
  (fp_blank p k = Some v -> float_value p k v = S754_nan) /\
  forall s o, fp_blank p k <> Some v -> - 2 ^ 63 <= v < 2 ^ 63 ->
    number 24 128 (fp_scale p k) s -> number 24 128 (fp_zero p k) o -> plain_fits s o v ->
    number 24 128 (float_value p k v) (plain_value s o v).
Proof. exact float_value_real. Qed.
Print Assumptions C63_pixel_value.

Local Open Scope R_scope.
(** ... so that for a writer that took for [x] a nearest step, the pixel is at most half a step from [x],
    but for the roundings. *)
Theorem C63_error : forall p k v s o x,
  fp_blank p k <> Some v -> (- 2 ^ 63 <= v < 2 ^ 63)%Z ->
  number 24 128 (fp_scale p k) s -> number 24 128 (fp_zero p k) o -> plain_fits s o v ->
  Rabs (x - (IZR v * s + o)) <= Rabs s / 2 ->
  exists y, number 24 128 (float_value p k v) y /\
    Rabs (y - x) <= Rabs s / 2 + 5 * bpow radix2 (-24) * (Rabs (IZR v * s) + Rabs o) + bpow radix2 (-148).
Proof. exact float_value_error. Qed.
Print Assumptions C63_error.

(** Such an integer is there for every [x] and every step. *)
Theorem C63_nearest_step : forall s o x, s <> 0 ->
  Rabs (x - (IZR (ZnearestE ((x - o) / s)) * s + o)) <= Rabs s / 2.
Proof. exact nearest_step. Qed.
Print Assumptions C63_nearest_step.

(** Together: the pixels of an image in such tiles, got from a file. *)
Theorem C63_image_close : forall gz m d pre s post p l f,
  octets d -> file_kinds (pre ++ (HBinTable, s) :: post) -> Forall (accepted m) pre -> fpicture_written gz m p s ->
  slabs (zp_dims (fp_ints p)) (zp_tiles (fp_ints p)) ->
  d = file_bytes (pre ++ (HBinTable, s) :: post) -> (len d < 2 ^ 63)%Z ->
  yields m (opened d) l f -> List.length l = Datatypes.S (List.length pre) ->
  exists l' h t st fuel0, l = l' ++ [IOk h] /\ h_xt h = XtBin t /\ get_tiles m f (h_values h) t = Some (Ok st) /\
    forall fuel n i, (fuel0 <= fuel)%nat -> (0 <= i < len (zp_pixels (fp_ints p)))%Z -> (i < Z.of_nat n)%Z ->
      let v := nth (Z.to_nat i) (zp_pixels (fp_ints p)) 0%Z in let k := (i / product (zp_tiles (fp_ints p)))%Z in
      let got := nth_error (fst (tiles_run gz m fuel st n)) (Z.to_nat i) in
      (fp_blank p k = Some v -> got = Some (PixelOf (PFloat S754_nan))) /\
      forall sc o x, fp_blank p k <> Some v -> number 24 128 (fp_scale p k) sc -> number 24 128 (fp_zero p k) o -> plain_fits sc o v ->
        Rabs (x - (IZR v * sc + o)) <= Rabs sc / 2 ->
        exists y r, got = Some (PixelOf (PFloat y)) /\ number 24 128 y r /\
          Rabs (r - x) <= Rabs sc / 2 + 5 * bpow radix2 (-24) * (Rabs (IZR v * sc) + Rabs o) + bpow radix2 (-148).
Proof. exact fpicture_close. Qed.
Print Assumptions C63_image_close.

Local Close Scope R_scope.
Local Open Scope Z_scope.
(** Every float image with its RICE codings has such an extension.  (In files, with other HDUs:
    C62_file_read_back and C62_files_round_trip.) *)
Theorem C63_writer : forall gz m q bs blocks, quantised_ok q bs blocks -> (m = Wrapping \/ gently_coded (qi_ints q) blocks) ->
  fpicture_written gz m (qi_picture q) (write_quantised q blocks).
Proof. exact written_quantised. Qed.
Print Assumptions C63_writer.

(** A 2 x 3 image with the scales 0.5 and 0.25 and 2 in its three rows, the zeros 0, 10 and -1000, and
    pixels without value.  The scales are f64. *)
Definition ex_bits (l : list Z) (k : Z) : Z := nth (Z.to_nat k) l 0.
Definition ex_floats : quantised_image :=
  mk_quantised
    (mk_zpicture (ZRice 2 4) BF32 [(2, None); (3, None)] [(chars "BLOCKSIZE", 2); (chars "BYTEPIX", 4)] [4; 5; -2147483648; 7; 0; -2147483648])
    (ex_bits [4602678819172646912; 4598175219545276416; 4611686018427387904]) (ex_bits [0; 4621819117588971520; 13875379345695965184])
    (Some (-2147483648)) (Some NoDither).
Definition ex_coding (k : Z) : list (coding * list Z) :=
  if k =? 0 then [(SplitAt 1, [4; 5])] else if k =? 1 then [(Raw, [-2147483648; 7])] else [(Raw, [0; -2147483648])].

Example C63_ex_ok : quantised_ok ex_floats 2 ex_coding /\ slabs (zp_dims (qi_ints ex_floats)) (zp_tiles (qi_ints ex_floats)).
Proof.
  assert (K : forall k, 0 <= k < product (grid (zp_dims (qi_ints ex_floats)) (zp_tiles (qi_ints ex_floats))) -> k = 0 \/ k = 1 \/ k = 2).
  { change (product (grid (zp_dims (qi_ints ex_floats)) (zp_tiles (qi_ints ex_floats)))) with 3. lia. }
  split.
  - split; [left; reflexivity|]. split; [repeat constructor; vm_compute; try discriminate; reflexivity|]. split; [|split].
    + unfold codings_ok. split; [vm_compute; discriminate|]. split; [repeat constructor|]. split; [reflexivity|]. split; [reflexivity|]. split; [lia|].
      split; [change (whole_tiles [2; 3] [2; 1]); repeat constructor; cbn; lia|]. split; [vm_compute; discriminate|]. split; [reflexivity|].
      split; [|split; vm_compute; reflexivity].
      intros k R. destruct (K k R) as [->|[->| ->]]; (split; [reflexivity|]); cbn; repeat split; try lia; repeat constructor; vm_compute; discriminate.
    + intro k. cbn [qi_scale qi_zero ex_floats]. unfold ex_bits. cbn [in_range].
      destruct (Z.to_nat k) as [|[|[|[|j]]]]; cbn [nth]; lia.
    + cbn. split; [lia|exact I].
  - change (slabs [2; 3] [2; 1]). apply slabs_full; [lia|]. apply (slabs_part 3 1 []); [lia|lia|reflexivity].
Qed.

Example C63_ex :
  let d := file_bytes (write_zfile (BU8, [], []) [WQuantised ex_floats 2 ex_coding]) in
  let f := snd (run Wrapping 2 (opened d)) in
  let num v := PixelOf (PFloat v) in
  match nth_error (fst (run Wrapping 2 (opened d))) 1 with
  | Some (IOk h) =>
    match h_xt h with
    | XtBin t =>
      match get_tiles Wrapping f (h_values h) t with
      | Some (Ok st) =>
        fst (tiles_run (fun _ _ => (None, [], 0)) Wrapping 9 st 7)
        = [num (f32_of_int 2); num (f32_of_bits 1075838976); num S754_nan; num (f32_of_bits 1094451200); num (f32_of_int (-1000)); num S754_nan; PixEnd]
      | _ => False
      end
    | _ => False
    end
  | _ => False
  end.
Proof. vm_compute. repeat split. Qed.
