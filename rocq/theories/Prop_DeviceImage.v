(** The decoder of the [image] crate on devices that fail (C87).  [DeviceImage] holds the model,
    [SpecDeviceImage] the specification side; the gzip decoder is any [gd] as in C82. *)

From Coq Require Import String List.
From Verif Require Import Base Utf8 Text Card Reader Header Xtension Bytes Fits ImageIt BinTable Rice Float Tile ImageInt.
From Verif Require Import Device DeviceTable DeviceTile DeviceImage.
From Verif Require Import HeaderProofs FitsProofs4 TileProofs6 ImageIntProofs2 DeviceImageProofs DeviceImageProofs2.
From Verif Require Import SpecUtf8 SpecCard SpecHeader SpecXt SpecFits SpecImage SpecBin SpecRice SpecTile SpecTileBreak SpecImageInt.
From Verif Require Import SpecDevice SpecDeviceTable SpecDeviceImage.
From Verif Require Import Prop_Fits Prop_Bin Prop_Device Prop_Rice Prop_Tile Prop_TileBreak Prop_DeviceTile Prop_ImageInt.
Local Open Scope string_scope.
Local Open Scope list_scope.
Local Open Scope Z_scope.

(** Opening reports every failure.  It makes [N] calls on the device when they work, and then the decoder is that
    of an in-memory source; when one of them fails the decoder is an error and no call follows. *)
Theorem C87_opening : forall m fuel r, exists N, forall fs,
  (working N fs -> dev_decoder_new m fuel r fs = (decoder_new m fuel r, skipn N fs)) /\
  (forall j, (j < N)%nat -> first_fault fs j ->
     exists e, dev_decoder_new m fuel r fs = (Some (Err e), skipn (S j) fs) /\ (e = EIoOther \/ e = EStatic)).
Proof. exact opening_device. Qed.
Print Assumptions C87_opening.

(** Reading a picture of one plane reports none.  When the call for value [j] fails the values before it are in
    their places, the rest of the buffer is as it was, and the result is [Ok]. *)
Theorem C87_grey : forall gd m fuel d fs0 fs dec im sc,
  octets d -> dev_decoder_new m fuel (mk_reader d 0) fs0 = (Some (Ok dec), fs) ->
  de_kind dec = KImage im -> de_rgb dec = false -> size_fits im -> scaling (h_values (de_hdu dec)) sc ->
  h_offset (de_hdu dec) + width (im_bitpix im) * pixel_count im <= len d ->
  let b := im_bitpix im in
  exists values,
    len values = de_width dec * de_height dec /\ stored d (h_offset (de_hdu dec)) b values /\
    forall fuel2 buf fs2,
    (working (List.length values) fs2 -> exists after, dev_read_image gd m fuel2 dec buf fs2 = Some (Ok after) /\
       laid_out (depth b) (channels b false) (place false) (map (image_sample b sc) values) buf after) /\
    (forall j, (j < List.length values)%nat -> first_fault fs2 j ->
       exists after, dev_read_image gd m fuel2 dec buf fs2 = Some (Ok after) /\
       laid_out (depth b) (channels b false) (place false) (map (image_sample b sc) (firstn j values)) buf after).
Proof.
  intros gd m fuel d fs0 fs dec im sc H1 H2 H3 H4 H5 H6 H7. exact (grey_device gd m fuel d fs0 fs dec H1 H2 im sc H3 H4 H5 H6 H7).
Qed.
Print Assumptions C87_grey.

(** Nor does reading a picture of three planes, which goes on after a failure.  When the call for value [j] fails,
    with the position moved by [k], the rest of the plane of [j] stays as it was in the buffer; [later] are the
    values read from where the device was left, and they make the next planes ([gap]). *)
Theorem C87_colour : forall gd m fuel d fs0 fs dec im sc,
  octets d -> dev_decoder_new m fuel (mk_reader d 0) fs0 = (Some (Ok dec), fs) ->
  de_kind dec = KImage im -> de_rgb dec = true -> size_fits im -> scaling (h_values (de_hdu dec)) sc ->
  h_offset (de_hdu dec) + width (im_bitpix im) * pixel_count im <= len d ->
  let b := im_bitpix im in
  exists values,
    len values = 3 * (de_width dec * de_height dec) /\ stored d (h_offset (de_hdu dec)) b values /\
    forall fuel2 buf fs2 j k, len buf = ImageInt.total_bytes dec -> (j < List.length values)%nat ->
      only_fault fs2 j k -> 0 <= k <= width b ->
      exists later after,
        stored d (h_offset (de_hdu dec) + width b * Z.of_nat j + k) b later /\
        List.length later = (List.length values - j - 1)%nat /\
        dev_read_image gd m fuel2 dec buf fs2 = Some (Ok after) /\
        laid_out (depth b) 3 (gap (Z.of_nat j)) (map (image_sample b sc) (firstn j values ++ later)) buf after.
Proof.
  intros gd m fuel d fs0 fs dec im sc H1 H2 H3 H4 H5 H6 H7. exact (colour_device gd m fuel d fs0 fs dec H1 H2 im sc H3 H4 H5 H6 H7).
Qed.
Print Assumptions C87_colour.

(** A tile-compressed picture of one plane: [calls] as in C82; the tiles before the one whose reading failed are
    shown, and the result is [Ok]. *)
Theorem C87_tiles : forall gd m fuel d fs0 fs dec t z sc pix ints,
  octets d -> dev_decoder_new m fuel (mk_reader d 0) fs0 = (Some (Ok dec), fs) ->
  de_kind dec = KTiles t z -> de_rgb dec = false -> scaling (h_values (de_hdu dec)) sc ->
  tiled d t (h_offset (de_hdu dec)) z ->
  whole_image z pix \/ scaled_image d t (h_offset (de_hdu dec)) (h_values (de_hdu dec)) z pix ->
  tiles_hold (gd_plain gd) m d t (h_offset (de_hdu dec)) z ints ->
  let b := z_bitpix z in
  let pixels := flat_map (fun row => pix row (ints row)) (upto (bt_naxis2 t)) in
  exists fuel0, forall fuel2, (fuel0 <= fuel2)%nat -> exists calls,
    (forall k, (k < List.length pixels)%nat ->
       ((1 <= nth k calls 0)%nat <-> Z.of_nat k mod product (z_tilen z) = 0)) /\
    forall buf fs2,
    (working (list_sum calls) fs2 -> exists after, dev_read_image gd m fuel2 dec buf fs2 = Some (Ok after) /\
       laid_out (depth b) (channels b false) (place false) (map (tile_sample b sc) pixels) buf after) /\
    (forall j k, first_fault fs2 j -> in_turn calls k j ->
       exists after, dev_read_image gd m fuel2 dec buf fs2 = Some (Ok after) /\
       laid_out (depth b) (channels b false) (place false) (map (tile_sample b sc) (firstn k pixels)) buf after).
Proof.
  intros gd m fuel d fs0 fs dec t z sc pix ints H1 H2 H3 H4 H5 H6 H7 H8.
  exact (tiles_device gd m fuel d fs0 fs dec H1 H2 t z sc pix ints H3 H4 H5 H6 H7 H8).
Qed.
Print Assumptions C87_tiles.

(** The same with a device that works and a tile that cannot be decompressed: the tiles before it are shown, the
    rest of the buffer is as it was, and the result is [Ok]. *)
Theorem C87_broken_tile : forall gz m fuel d dec t z sc pix ints k bytes,
  octets d -> decoder_new m fuel (mk_reader d 0) = Some (Ok dec) ->
  de_kind dec = KTiles t z -> de_rgb dec = false -> scaling (h_values (de_hdu dec)) sc ->
  tiled d t (h_offset (de_hdu dec)) z ->
  whole_image z pix \/ scaled_image d t (h_offset (de_hdu dec)) (h_values (de_hdu dec)) z pix ->
  0 <= k < bt_naxis2 t ->
  first_tiles_hold gz m d t (h_offset (de_hdu dec)) z ints k ->
  tile_at d t (h_offset (de_hdu dec)) (z_data_idx z) k bytes ->
  broken_tile gz m (z_cmp z) (product (z_tilen z)) bytes ->
  let b := z_bitpix z in
  exists fuel0, forall fuel2 buf, (fuel0 <= fuel2)%nat ->
    exists after, read_image gz m fuel2 dec buf = Some (Ok after) /\
      laid_out (depth b) (channels b false) (place false)
        (map (tile_sample b sc) (flat_map (fun row => pix row (ints row)) (upto k))) buf after.
Proof. exact broken_tile_shown. Qed.
Print Assumptions C87_broken_tile.

(** *** Cases *)

(** The file is opened over a device that works and the picture read with the failures [fs]. *)
Definition dev_decoded (m : mode) (d buf : list Z) (fs : faults) : option (list Z) :=
  match dev_decoder_new m 9 (mk_reader d 0) [] with
  | (Some (Ok dec), _) => match dev_read_image ex_gd m 30 dec buf fs with Some (Ok l) => Some l | _ => None end
  | _ => None
  end.
Lemma ex_dev_decoder m d (P : decoder -> faults -> Prop) :
  match dev_decoder_new m 9 (mk_reader d 0) [] with (Some (Ok dec), fs) => P dec fs | _ => False end ->
  exists dec fs, dev_decoder_new m 9 (mk_reader d 0) [] = (Some (Ok dec), fs) /\ P dec fs.
Proof. destruct (dev_decoder_new m 9 (mk_reader d 0) []) as [[[dec| |]|] fs]; try contradiction. eauto. Qed.

Example C87_faults : first_fault [None; Some 0] 1 /\ only_fault [None; None; Some 2] 2 2 /\
  map (gap 1 2 1) [0; 1] = [1; 2] /\ map (gap 1 2 2) [0; 1] = [3; 4] /\ map (gap 1 2 0) [0; 1] = [0; 6].
Proof.
  split; [|split; [|vm_compute; repeat split]].
  - split; [repeat constructor|]. exists 0. reflexivity.
  - split; [reflexivity|]. intros [|[|[|[|i]]]] x E; cbn in E; congruence.
Qed.

(** A picture of 2 x 1 pixels with one plane and one with three. *)
Definition ex_flat : list Z :=
  header_bytes (ex_source ["SIMPLE  = T"; "BITPIX  = 16"; "NAXIS   = 2"; "NAXIS1  = 2"; "NAXIS2  = 1"] []) ++ [1; 2; 3; 4].
Definition ex_colours : list Z :=
  header_bytes (ex_source ["SIMPLE  = T"; "BITPIX  = 8"; "NAXIS   = 3"; "NAXIS1  = 2"; "NAXIS2  = 1"; "NAXIS3  = 3"] [])
  ++ [11; 12; 21; 22; 31; 32].
Definition opened_as (m : mode) (d : list Z) (n : nat) : option (res unit) :=
  match fst (dev_decoder_new m 9 (mk_reader d 0) (failing_at n)) with
  | Some (Ok _) => Some (Ok tt) | Some (Err e) => Some (Err e) | Some Panic => Some Panic | None => None
  end.
Example C87_opening_case : forall m,
  map (opened_as m ex_flat) [0; 5; 6; 7]%nat = [Some (Err EIoOther); Some (Err EIoOther); Some (Err EStatic); Some (Ok tt)].
Proof. intros []; vm_compute; reflexivity. Qed.
Example C87_grey_case : octets ex_flat /\ forall m, exists dec fs,
  dev_decoder_new m 9 (mk_reader ex_flat 0) [] = (Some (Ok dec), fs) /\
  de_kind dec = KImage (mk_image BI16 [2; 1]) /\ de_rgb dec = false /\ scale_of (h_values (de_hdu dec)) = Ok default_scale /\
  h_offset (de_hdu dec) = 2880 /\ len ex_flat = 2884 /\
  dev_decoded m ex_flat (repeat 9 4) [] = Some [2; 1; 4; 3] /\
  dev_decoded m ex_flat (repeat 9 4) [None; Some 0] = Some [2; 1; 9; 9].
Proof.
  split; [apply octetsb_ok; vm_compute; reflexivity|]. intro m. apply ex_dev_decoder. destruct m; vm_compute; repeat split.
Qed.
Example C87_case_hypotheses : size_fits (mk_image BI16 [2; 1]) /\ size_fits (mk_image BU8 [2; 1; 3]) /\
  (forall vs, scale_of vs = Ok default_scale -> scaling vs default_scale) /\
  2880 + width BI16 * pixel_count (mk_image BI16 [2; 1]) <= 2884 /\ 2880 + width BU8 * pixel_count (mk_image BU8 [2; 1; 3]) <= 2886.
Proof.
  split; [|split; [|split; [intros vs; apply scale_of_iff|split; vm_compute; discriminate]]]; (split; [|vm_compute; reflexivity]);
    intros l r E.
  - destruct l as [|a [|b [|? ?]]]; inversion E; subst; vm_compute; reflexivity.
  - destruct l as [|a [|b [|c [|? ?]]]]; inversion E; subst; vm_compute; reflexivity.
Qed.

(** Colours: the pixels are (11, 21, 31) and (12, 22, 32).  After one failure that did not move the device every
    value that follows is in the wrong place, the second red value is shown as green, and the result is [Ok]. *)
Theorem C87_mixed_colours_refuted : octets ex_colours /\ forall m, exists dec fs,
  dev_decoder_new m 9 (mk_reader ex_colours 0) [] = (Some (Ok dec), fs) /\
  de_kind dec = KImage (mk_image BU8 [2; 1; 3]) /\ de_rgb dec = true /\ scale_of (h_values (de_hdu dec)) = Ok default_scale /\
  h_offset (de_hdu dec) = 2880 /\ len ex_colours = 2886 /\ ImageInt.total_bytes dec = 6 /\
  dev_decoded m ex_colours (repeat 9 6) [] = Some [11; 21; 31;   12; 22; 32] /\
  dev_decoded m ex_colours (repeat 9 6) [None; Some 0] = Some [11; 12; 22;   9; 21; 31] /\
  dev_decoded m ex_colours (repeat 9 6) [None; Some 1] = Some [11; 21; 31;   9; 22; 32].
Proof.
  split; [apply octetsb_ok; vm_compute; reflexivity|]. intro m. apply ex_dev_decoder. destruct m; vm_compute; repeat split.
Qed.
Print Assumptions C87_mixed_colours_refuted.

(** Tiles: [ex_square] of C50, two tiles of four pixels, each of eight calls. *)
Example C87_tiles_case : forall m, exists dec fs, dev_decoder_new m 9 (mk_reader ex_square 0) [] = (Some (Ok dec), fs) /\
  match de_kind dec with
  | KTiles t z => tiledb ex_square t (h_offset (de_hdu dec)) z && gzip_tilesb (gd_plain ex_gd) ex_square t (h_offset (de_hdu dec)) z ex_square_ints = true /\
      z_bitpix z = BU8 /\ z_cmp z = ZGzip1 /\ z_tilen z = [2; 2]
  | KImage _ => False
  end /\ de_rgb dec = false /\ scale_of (h_values (de_hdu dec)) = Ok default_scale /\
  dev_decoded m ex_square (repeat 9 8) (failing_at 7) = Some (repeat 9 8) /\
  dev_decoded m ex_square (repeat 9 8) (failing_at 8) = Some [1; 2; 5; 6; 9; 9; 9; 9] /\
  dev_decoded m ex_square (repeat 9 8) (failing_at 16) = Some [1; 2; 5; 6; 3; 4; 7; 8].
Proof. intro m. apply ex_dev_decoder. destruct m; vm_compute; repeat split. Qed.

(** A tile cut off by the end of the file, as in C69: the second row of the picture is not touched. *)
Example C87_broken_tile_case : forall m, exists dec, decoder_new m 9 (mk_reader ex_cut_file 0) = Some (Ok dec) /\
  match de_kind dec with
  | KTiles t z => tiledb ex_cut_file t (h_offset (de_hdu dec)) z = true /\ z_bitpix z = BI32 /\ z_cmp z = ZRice 2 4 /\
      z_tilen z = [6; 1] /\ bt_naxis2 t = 2 /\
      option_map (firstn 15) (tile_bytes ex_cut_file t (h_offset (de_hdu dec)) (z_data_idx z) 0) = Some ex_bytes /\
      tile_bytes ex_cut_file t (h_offset (de_hdu dec)) (z_data_idx z) 1 = Some (firstn 14 ex_bytes)
  | KImage _ => False
  end /\ de_rgb dec = false /\ scale_of (h_values (de_hdu dec)) = Ok default_scale /\
  option_map (skipn 72) (decoded ex_gz m ex_cut_file (repeat 9 144)) = Some (repeat 9 72).
Proof. intro m. apply ex_decoder. destruct m; vm_compute; repeat split. Qed.

(** With three planes the decoder goes on after the broken tile.  One tile to a plane, and the code of the second
    is damaged: green is missing, and blue is given out of the buffer, where the first tile still is. *)
Definition ex_rgb_tiles (n : Z) : list Z :=
  ex_tiled_file "8" "GZIP_1"
    ["NAXIS1  = 8"; "NAXIS2  = 3"; "TFIELDS = 1"; "TFORM1  = '1PB(9)'"; "TTYPE1  = 'COMPRESSED_DATA'";
     "ZNAXIS  = 3"; "ZNAXIS1 = 2"; "ZNAXIS2 = 1"; "ZNAXIS3 = 3"; "ZTILE1  = 2"; "ZTILE2  = 1"; "ZTILE3  = 1"]
    [0; 0; 0; 9; 0; 0; 0; 0;   0; 0; 0; 9; 0; 0; 0; 9;   0; 0; 0; 9; 0; 0; 0; 18]
    ([8] ++ flat_map be4 [1; 2] ++ [n] ++ flat_map be4 [3; 4] ++ [8] ++ flat_map be4 [5; 6] ++ repeat 0 6).
Theorem C87_wrong_plane_refuted : forall m,
  decoded ex_gz m (ex_rgb_tiles 8) (repeat 9 6) = Some [1; 3; 5;   2; 4; 6] /\
  decoded ex_gz m (ex_rgb_tiles 0) (repeat 9 6) = Some [1; 9; 1;   2; 9; 2].
Proof. intros []; vm_compute; split; reflexivity. Qed.
Print Assumptions C87_wrong_plane_refuted.
