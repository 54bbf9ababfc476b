(** Tile-compressed images (C40-C43).  [get_tiles] is the model of [get_data] on such a table, [tiles_run] a
    series of [next] calls on its pixel iterator; [SpecTile] holds the specification side.  The gzip decoder
    is not modelled: the theorems hold for every decoder [gz]. *)

From Coq Require Import String List.
From Verif Require Import Base Utf8 Text Card Reader Header Xtension Bytes Fits ImageIt BinTable Rice Float Tile.
From Verif Require Import SpecUtf8 SpecCard SpecHeader SpecXt SpecFits SpecImage SpecBin SpecRice SpecTile.
From Verif Require Import HeaderProofs FitsProofs4 BinProofs3 TileProofs4 TileProofs5 TileProofs6 Prop_Fits Prop_Bin Prop_Rice.
Local Open Scope string_scope.
Local Open Scope list_scope.
Local Open Scope Z_scope.

(** ** Example files *)

(** A decoder for the examples: a byte that counts, and as many bytes. *)
Definition ex_gz : gunzip := fun rest n =>
  let content := slice (tl rest) 0 (hd 0 rest) in
  if n <=? len content then (Some (slice content 0 n), slice content 0 n, 1 + n) else (None, content, 1 + len content).
Definition ex_tiled_file (bitpix cmp : string) (lines : list string) (rows heap : list Z) : list Z :=
  ex_table_file (["PCOUNT  = 40"; "ZIMAGE  = T"; "ZBITPIX = " ++ bitpix; "ZCMPTYPE= '" ++ cmp ++ "'"]%string ++ lines) (rows ++ heap).
Definition ex_run_tiles (gz : gunzip) (m : mode) (f' : fits) (vs : vmap) (t : bintable) (n : nat) : option (list pixel_result * Z) :=
  match get_tiles m f' vs t with
  | Some (Ok s) => let (l, s') := tiles_run gz m 30 s n in Some (l, rd_pos (tl_reader s'))
  | Some Panic => Some ([PixPanic], 0)
  | _ => None
  end.
Ltac ex_tiles_check :=
  let m := fresh in intro m;
  apply ex_tiles;
    [vm_compute; reflexivity|destruct m; vm_compute; reflexivity|destruct m; vm_compute; discriminate|
     destruct m; vm_compute; repeat (split || constructor); intros; discriminate].

(** An image of two rows of two pixels, one row to a tile; the second tile comes first in the heap. *)
Definition ex_two : list string :=
  ["NAXIS1  = 8"; "NAXIS2  = 2"; "TFIELDS = 1"; "TFORM1  = '1PB(9)'"; "TTYPE1  = 'COMPRESSED_DATA'";
   "ZNAXIS  = 2"; "ZNAXIS1 = 2"; "ZNAXIS2 = 2"].
Definition ex_rows : list Z := [0; 0; 0; 9; 0; 0; 0; 9;   0; 0; 0; 9; 0; 0; 0; 0].
Definition ex_ints (row : Z) : list Z := if row =? 0 then [1; -2] else [70000; 3].
Definition ex_plain : list Z :=
  ex_tiled_file "8" "GZIP_1" ex_two ex_rows ([8] ++ flat_map be4 (ex_ints 1) ++ [8] ++ flat_map be4 (ex_ints 0) ++ repeat 0 22).
Definition ex_shuffled (bitpix : string) : list Z :=
  ex_tiled_file bitpix "GZIP_2" ex_two ex_rows ([8] ++ planes (ex_ints 1) ++ [8] ++ planes (ex_ints 0) ++ repeat 0 22).

(** ** C42: all pixels of all tiles *)

(** Integer images: the iterator yields the pixels tile after tile in the order of the rows, each tile
    [product (z_tilen z)] pixels, then the end for ever.  Every heap layout, RICE and gzip, every build. *)
Theorem C42_integer_tiles : forall gz m d f h f' t z ints,
  octets d -> rd_data (f_reader f) = d -> 0 <= rd_pos (f_reader f) -> next m f = (IOk h, f') ->
  h_xt h = XtBin t -> bt_zimage t = Some z ->
  tiled d t (h_offset h) z -> tiles_hold gz m d t (h_offset h) z ints ->
  whole_pixels (z_bitpix z) -> ~ (z_bitpix z = BU8 /\ z_cmp z = ZGzip2) ->
  exists s fuel0, get_tiles m f' (h_values h) t = Some (Ok s) /\
    forall fuel n, (fuel0 <= fuel)%nat ->
    fst (tiles_run gz m fuel s n)
    = firstn n (map PixelOf (flat_map (fun row => map (int_pixel (z_bitpix z)) (ints row)) (upto (bt_naxis2 t))) ++ repeat PixEnd n).
Proof. exact int_tiles_read. Qed.
Print Assumptions C42_integer_tiles.

(** Float images, without dithering (see C44_zquantiz_refuted): scaled with the values of the tile's row. *)
Theorem C42_float_tiles : forall gz m d f h f' t z ints scale zero blank,
  octets d -> rd_data (f_reader f) = d -> 0 <= rd_pos (f_reader f) -> next m f = (IOk h, f') ->
  h_xt h = XtBin t -> bt_zimage t = Some z ->
  tiled d t (h_offset h) z -> tiles_hold gz m d t (h_offset h) z ints ->
  real_pixels (z_bitpix z) -> quantised d t (h_offset h) (h_values h) scale zero blank ->
  exists s fuel0, get_tiles m f' (h_values h) t = Some (Ok s) /\
    forall fuel n, (fuel0 <= fuel)%nat ->
    fst (tiles_run gz m fuel s n)
    = firstn n (map PixelOf (flat_map (fun row => map (float_pixel ZNoDither (scale row) (zero row) (blank row) S754_nan) (ints row))
                                      (upto (bt_naxis2 t))) ++ repeat PixEnd n).
Proof. exact float_tiles_read. Qed.
Print Assumptions C42_float_tiles.

(** ** C43: back to the table *)

(** Whatever the places of the tiles in the heap: when [n] pixels are read, the reader is at the beginning
    of the row after the last tile begun. *)
Theorem C43_back_to_table : forall gz m d f h f' t z ints scale zero blank,
  octets d -> rd_data (f_reader f) = d -> 0 <= rd_pos (f_reader f) -> next m f = (IOk h, f') ->
  h_xt h = XtBin t -> bt_zimage t = Some z ->
  tiled d t (h_offset h) z -> tiles_hold gz m d t (h_offset h) z ints ->
  whole_pixels (z_bitpix z) /\ ~ (z_bitpix z = BU8 /\ z_cmp z = ZGzip2) \/
  real_pixels (z_bitpix z) /\ quantised d t (h_offset h) (h_values h) scale zero blank ->
  exists s fuel0, get_tiles m f' (h_values h) t = Some (Ok s) /\
    forall fuel n, (fuel0 <= fuel)%nat ->
    tl_reader (snd (tiles_run gz m fuel s n))
    = mk_reader d (h_offset h + bt_naxis1 t * Z.min (bt_naxis2 t) (tiles_begun z n)).
Proof. exact tiles_return. Qed.
Print Assumptions C43_back_to_table.

(** The hypotheses, and a run: gzip. *)
Example C42_gzip_case : forall m, exists h f' t z,
  found_tiles m (ex_shuffled "16") h f' t z /\
  (tiledb (ex_shuffled "16") t (h_offset h) z && gzip_tilesb ex_gz (ex_shuffled "16") t (h_offset h) z ex_ints = true) /\
  z_bitpix z = BI16 /\ z_cmp z = ZGzip2 /\ h_offset h = 5760 /\
  ex_run_tiles ex_gz m f' (h_values h) t 0 = Some ([], 5760) /\
  ex_run_tiles ex_gz m f' (h_values h) t 2 = Some (map (fun v => PixelOf (PInt v)) [1; -2], 5768) /\
  ex_run_tiles ex_gz m f' (h_values h) t 6 = Some (map (fun v => PixelOf (PInt v)) [1; -2; 4464; 3] ++ [PixEnd; PixEnd], 5776).
Proof. ex_tiles_check. Qed.
Example C42_gzip_case_hypotheses : forall m t o z,
  tiledb (ex_shuffled "16") t o z && gzip_tilesb ex_gz (ex_shuffled "16") t o z ex_ints = true ->
  tiled (ex_shuffled "16") t o z /\ tiles_hold ex_gz m (ex_shuffled "16") t o z ex_ints.
Proof. intros m t o z H. apply andb_prop in H as [H1 H2]. split; [apply tiledb_ok, H1|apply gzip_tilesb_ok, H2]. Qed.

(** RICE: two tiles of six pixels, the tiles of Prop_Rice. *)
Definition ex_rice : list Z :=
  ex_tiled_file "32" "RICE_1"
    ["NAXIS1  = 8"; "NAXIS2  = 2"; "TFIELDS = 1"; "TFORM1  = '1PB(15)'"; "TTYPE1  = 'COMPRESSED_DATA'";
     "ZNAXIS  = 2"; "ZNAXIS1 = 6"; "ZNAXIS2 = 2"; "ZNAME1  = 'BLOCKSIZE'"; "ZVAL1   = 2"]
    [0; 0; 0; 15; 0; 0; 0; 20;   0; 0; 0; 15; 0; 0; 0; 0] (ex_bytes ++ repeat 9 5 ++ ex_bytes ++ repeat 7 5).
Example C42_rice_case : forall m, exists h f' t z,
  found_tiles m ex_rice h f' t z /\ tiledb ex_rice t (h_offset h) z = true /\
  z_cmp z = ZRice 2 4 /\ z_tilen z = [6; 1] /\ bt_naxis2 t = 2 /\
  option_map (firstn 15) (tile_bytes ex_rice t (h_offset h) (z_data_idx z) 0) = Some ex_bytes /\
  option_map (firstn 15) (tile_bytes ex_rice t (h_offset h) (z_data_idx z) 1) = Some ex_bytes /\
  ex_run_tiles ex_gz m f' (h_values h) t 13
  = Some (map (fun v => PixelOf (PInt v)) ([100; 103; 103; 103; -5; 2 ^ 30] ++ [100; 103; 103; 103; -5; 2 ^ 30]) ++ [PixEnd], 5776).
Proof. ex_tiles_check. Qed.
Example C42_rice_case_hypotheses : forall m t o z,
  z_cmp z = ZRice 2 4 -> z_tilen z = [6; 1] -> bt_naxis2 t = 2 ->
  option_map (firstn 15) (tile_bytes ex_rice t o (z_data_idx z) 0) = Some ex_bytes ->
  option_map (firstn 15) (tile_bytes ex_rice t o (z_data_idx z) 1) = Some ex_bytes ->
  tiles_hold ex_gz m ex_rice t o z (fun _ => block_pixels ex_blocks).
Proof.
  intros m t o z C T N H0 H1 row Hr. rewrite C, T. split; [reflexivity|]. rewrite N in Hr.
  destruct C38_case_bytes as (_ & B2 & B3 & B4).
  assert (E : row = 0 \/ row = 1) by lia.
  destruct E as [-> | ->];
    [destruct (tile_bytes ex_rice t o (z_data_idx z) 0) as [b|] eqn:E|destruct (tile_bytes ex_rice t o (z_data_idx z) 1) as [b|] eqn:E];
    try discriminate; exists b; (split; [apply tile_bytes_ok, E|]);
    (apply (rice_tile_ok _ _ _ _ ex_bytes _ 100 ex_blocks); [|exact ex_compressed|vm_compute; discriminate|exact B3|exact B4|exact B2]);
    change (length ex_bytes) with 15%nat; cbn [option_map] in H0, H1; congruence.
Qed.

(** Floats, with a blank and with tiles at different scales: ZSCALE 1/2 and 2, ZZERO 0 and 1/4, ZBLANK 3
    (the pixels are 0.5, -1, 140000.25 and NaN). *)
Definition ex_floats (quant : string) (ints : Z -> list Z) : list Z :=
  ex_tiled_file "-32" "GZIP_1"
    ["NAXIS1  = 20"; "NAXIS2  = 2"; "TFIELDS = 3"; "TFORM1  = '1E'"; "TTYPE1  = 'ZSCALE'"; "TFORM2  = '1PB(9)'"; "TTYPE2  = 'COMPRESSED_DATA'";
     "TFORM3  = '1D'"; "TTYPE3  = 'ZZERO'"; "ZNAXIS  = 2"; "ZNAXIS1 = 2"; "ZNAXIS2 = 2"; "ZBLANK  = 3"; "ZQUANTIZ= '" ++ quant ++ "'"; "ZDITHER0= 1"]%string
    [63; 0; 0; 0;   0; 0; 0; 9; 0; 0; 0; 9;   0; 0; 0; 0; 0; 0; 0; 0;
     64; 0; 0; 0;   0; 0; 0; 9; 0; 0; 0; 0;   63; 208; 0; 0; 0; 0; 0; 0]
    ([8] ++ flat_map be4 (ints 1) ++ [8] ++ flat_map be4 (ints 0) ++ repeat 0 22).
Definition ex_scale (row : Z) : spec_float := f32_of_bits (if row =? 0 then 1056964608 else 1073741824).
Definition ex_zero (row : Z) : spec_float := f32_of_f64 (f64_of_bits (if row =? 0 then 0 else 4598175219545276416)).
Example C42_float_case : forall m, exists h f' t z,
  found_tiles m (ex_floats "NO_DITHER" ex_ints) h f' t z /\
  (tiledb (ex_floats "NO_DITHER" ex_ints) t (h_offset h) z && gzip_tilesb ex_gz (ex_floats "NO_DITHER" ex_ints) t (h_offset h) z ex_ints = true) /\
  z_bitpix z = BF32 /\ quantisedb (ex_floats "NO_DITHER" ex_ints) t (h_offset h) (h_values h) ex_scale ex_zero (fun _ => Some 3) = true /\
  ex_run_tiles ex_gz m f' (h_values h) t 6
  = Some ([PixelOf (PFloat (f32_of_bits 1056964608)); PixelOf (PFloat (f32_of_int (-1)));
           PixelOf (PFloat (S754_finite false 8960016 (-6))); PixelOf (PFloat S754_nan); PixEnd; PixEnd], 5800).
Proof. ex_tiles_check. Qed.
Example C42_float_case_hypotheses : forall m t o z vs,
  (tiledb (ex_floats "NO_DITHER" ex_ints) t o z && gzip_tilesb ex_gz (ex_floats "NO_DITHER" ex_ints) t o z ex_ints = true) ->
  quantisedb (ex_floats "NO_DITHER" ex_ints) t o vs ex_scale ex_zero (fun _ => Some 3) = true ->
  tiled (ex_floats "NO_DITHER" ex_ints) t o z /\ tiles_hold ex_gz m (ex_floats "NO_DITHER" ex_ints) t o z ex_ints /\
  quantised (ex_floats "NO_DITHER" ex_ints) t o vs ex_scale ex_zero (fun _ => Some 3).
Proof.
  intros m t o z vs H1 H2. apply andb_prop in H1 as [H1 H3].
  split; [apply tiledb_ok, H1|]. split; [apply gzip_tilesb_ok, H3|apply quantisedb_ok, H2].
Qed.

(** *** Findings *)

(** The last tile of an image whose size is not a multiple of the tile size has fewer pixels; the code
    wants as many as in the others, so the pixel is lost; further calls yield pixels that do not exist,
    from the bytes of the tile before.  The image is 1, 2, 3. *)
Definition ex_border : list Z :=
  ex_tiled_file "32" "GZIP_1"
    ["NAXIS1  = 8"; "NAXIS2  = 2"; "TFIELDS = 1"; "TFORM1  = '1PB(9)'"; "TTYPE1  = 'COMPRESSED_DATA'";
     "ZNAXIS  = 1"; "ZNAXIS1 = 3"; "ZTILE1  = 2"]
    [0; 0; 0; 9; 0; 0; 0; 0;   0; 0; 0; 5; 0; 0; 0; 9]
    ([8] ++ flat_map be4 [1; 2] ++ [4] ++ flat_map be4 [3] ++ repeat 0 26).
Theorem C42_border_refuted : forall m, exists h f' t z,
  found_tiles m ex_border h f' t z /\ tiledb ex_border t (h_offset h) z = true /\
  z_naxisn z = [3] /\ z_tilen z = [2] /\ bt_naxis2 t = 2 /\
  (option_map (fun b => fst (fst (ex_gz b 8))) (tile_bytes ex_border t (h_offset h) (z_data_idx z) 0) = Some (Some (flat_map be4 [1; 2]))) /\
  (option_map (fun b => fst (fst (ex_gz b 4))) (tile_bytes ex_border t (h_offset h) (z_data_idx z) 1) = Some (Some (flat_map be4 [3]))) /\
  option_map fst (ex_run_tiles ex_gz m f' (h_values h) t 6)
  = Some [PixelOf (PInt 1); PixelOf (PInt 2); PixEnd; PixelOf (PInt 3); PixelOf (PInt 2); PixEnd].
Proof. ex_tiles_check. Qed.
Print Assumptions C42_border_refuted.

(** A tile that cannot be decompressed: end of the image, and then pixels of the tile before; the reader is left
    in the heap, so rows after that tile are lost or nonsense. *)
Definition ex_broken : list Z :=
  ex_tiled_file "32" "GZIP_1"
    ["NAXIS1  = 8"; "NAXIS2  = 3"; "TFIELDS = 1"; "TFORM1  = '1PB(5)'"; "TTYPE1  = 'COMPRESSED_DATA'";
     "ZNAXIS  = 1"; "ZNAXIS1 = 3"; "ZTILE1  = 1"]
    [0; 0; 0; 5; 0; 0; 0; 0;   0; 0; 0; 5; 0; 0; 0; 10;   0; 0; 0; 5; 0; 0; 0; 5]
    ([4] ++ flat_map be4 [1] ++ [4] ++ flat_map be4 [3] ++ repeat 0 30).
Theorem C43_broken_tile_refuted : forall m, exists h f' t z,
  found_tiles m ex_broken h f' t z /\ tiledb ex_broken t (h_offset h) z = true /\ h_offset h = 5760 /\
  ex_run_tiles ex_gz m f' (h_values h) t 1 = Some ([PixelOf (PInt 1)], 5768) /\
  ex_run_tiles ex_gz m f' (h_values h) t 2 = Some ([PixelOf (PInt 1); PixEnd], 5795) /\
  option_map fst (ex_run_tiles ex_gz m f' (h_values h) t 4) = Some [PixelOf (PInt 1); PixEnd; PixelOf (PInt 1); PixEnd].
Proof. ex_tiles_check. Qed.
Print Assumptions C43_broken_tile_refuted.

(** A column of more than one value before the column of the tiles: a panic. *)
Definition ex_wide : list Z :=
  ex_tiled_file "32" "GZIP_1"
    ["NAXIS1  = 10"; "NAXIS2  = 1"; "TFIELDS = 2"; "TFORM1  = '2B'"; "TTYPE1  = 'FLAGS'"; "TFORM2  = '1PB(5)'"; "TTYPE2  = 'COMPRESSED_DATA'";
     "ZNAXIS  = 1"; "ZNAXIS1 = 1"]
    [1; 2; 0; 0; 0; 5; 0; 0; 0; 0] ([4] ++ flat_map be4 [1] ++ repeat 0 35).
Theorem C42_wide_column_refuted : forall m, exists h f' t z,
  found_tiles m ex_wide h f' t z /\ bt_tforms t = [TElem TyB 2; TDesc32 TyB] /\ z_data_idx z = 1 /\
  option_map (fun b => fst (fst (ex_gz b 4))) (tile_bytes ex_wide t (h_offset h) 1 0) = Some (Some (flat_map be4 [1])) /\
  option_map fst (ex_run_tiles ex_gz m f' (h_values h) t 1) = Some [PixPanic].
Proof. ex_tiles_check. Qed.
Print Assumptions C42_wide_column_refuted.

(** A float image without the column ZSCALE (the standard allows the keyword): [get_data] panics. *)
Definition ex_no_scale : list Z :=
  ex_tiled_file "-32" "GZIP_1" (ex_two ++ ["ZSCALE  = 1.0"; "ZZERO   = 0.0"]) ex_rows
    ([8] ++ flat_map be4 (ex_ints 1) ++ [8] ++ flat_map be4 (ex_ints 0) ++ repeat 0 22).
Theorem C42_no_scale_refuted : forall m, exists h f' t z,
  found_tiles m ex_no_scale h f' t z /\ tiledb ex_no_scale t (h_offset h) z = true /\
  gzip_tilesb ex_gz ex_no_scale t (h_offset h) z ex_ints = true /\
  get_tiles m f' (h_values h) t = Some Panic.
Proof. ex_tiles_check. Qed.
Print Assumptions C42_no_scale_refuted.

(** A tile size of zero: a panic. *)
Definition ex_no_tile : list Z :=
  ex_tiled_file "32" "GZIP_1" (ex_two ++ ["ZTILE1  = 0"]) ex_rows (repeat 0 40).
Theorem C42_no_tile_refuted : forall m, exists h f' t z,
  found_tiles m ex_no_tile h f' t z /\ z_tilen z = [0; 1] /\
  option_map fst (ex_run_tiles ex_gz m f' (h_values h) t 1) = Some [PixPanic].
Proof. ex_tiles_check. Qed.
Print Assumptions C42_no_tile_refuted.

(** ** C40: gzip tiles *)

(** Pixels are the low 8, 16 or 32 bits of the integers whose bytes the decoder gives: one after the other
    for GZIP_1, plane after plane for GZIP_2. *)
Theorem C40_gzip : forall gz m d f h f' t z ints,
  octets d -> rd_data (f_reader f) = d -> 0 <= rd_pos (f_reader f) -> next m f = (IOk h, f') ->
  h_xt h = XtBin t -> bt_zimage t = Some z -> tiled d t (h_offset h) z ->
  z_cmp z = ZGzip1 /\ whole_pixels (z_bitpix z) \/ z_cmp z = ZGzip2 /\ (z_bitpix z = BI16 \/ z_bitpix z = BI32) ->
  (forall row, 0 <= row < bt_naxis2 t ->
    len (ints row) = product (z_tilen z) /\ Forall (fun v => - 2 ^ 31 <= v < 2 ^ 31) (ints row) /\
    exists bytes, tile_at d t (h_offset h) (z_data_idx z) row bytes /\
      fst (fst (gz bytes (4 * len (ints row))))
      = Some (match z_cmp z with ZGzip2 => planes (ints row) | _ => flat_map be4 (ints row) end)) ->
  exists s fuel0, get_tiles m f' (h_values h) t = Some (Ok s) /\
    forall fuel n, (fuel0 <= fuel)%nat ->
    fst (tiles_run gz m fuel s n)
    = firstn n (map PixelOf (flat_map (fun row => map (int_pixel (z_bitpix z)) (ints row)) (upto (bt_naxis2 t))) ++ repeat PixEnd n).
Proof. exact gzip_read. Qed.
Print Assumptions C40_gzip.

(** C42_gzip_case is a case for GZIP_2; here is one for GZIP_1. *)
Example C40_case : forall m, exists h f' t z,
  found_tiles m ex_plain h f' t z /\
  (tiledb ex_plain t (h_offset h) z && gzip_tilesb ex_gz ex_plain t (h_offset h) z ex_ints = true) /\
  z_bitpix z = BU8 /\ z_cmp z = ZGzip1 /\
  option_map fst (ex_run_tiles ex_gz m f' (h_values h) t 5) = Some (map (fun v => PixelOf (PInt v)) [1; 254; 112; 3] ++ [PixEnd]).
Proof. ex_tiles_check. Qed.

(** 8-bit GZIP_2 images: the planes are not put together. *)
Theorem C40_u8_gzip2_refuted : forall m, exists h f' t z,
  found_tiles m (ex_shuffled "8") h f' t z /\ tiledb (ex_shuffled "8") t (h_offset h) z = true /\
  gzip_tilesb ex_gz (ex_shuffled "8") t (h_offset h) z ex_ints = true /\ z_bitpix z = BU8 /\
  flat_map (fun row => map (int_pixel BU8) (ex_ints row)) [0; 1] = map PInt [1; 254; 112; 3] /\
  option_map fst (ex_run_tiles ex_gz m f' (h_values h) t 4) = Some (map (fun v => PixelOf (PInt v)) [255; 254; 0; 3]).
Proof. ex_tiles_check. Qed.
Print Assumptions C40_u8_gzip2_refuted.

(** Tiles of a 16-bit image that are compressed as the 16-bit integers they are (see the standard, section 10.4.2):
    no pixel at all. *)
Definition ex_short : list Z :=
  ex_tiled_file "16" "GZIP_1" ex_two ex_rows ([4; 0; 5; 0; 6; 0; 0; 0; 0] ++ [4; 0; 7; 0; 8; 0; 0; 0; 0] ++ repeat 0 22).
Theorem C40_short_refuted : forall m, exists h f' t z,
  found_tiles m ex_short h f' t z /\ tiledb ex_short t (h_offset h) z = true /\ z_bitpix z = BI16 /\
  (option_map (fun b => fst (fst (ex_gz b 4))) (tile_bytes ex_short t (h_offset h) (z_data_idx z) 0) = Some (Some [0; 7; 0; 8])) /\
  option_map fst (ex_run_tiles ex_gz m f' (h_values h) t 1) = Some [PixEnd].
Proof. ex_tiles_check. Qed.
Print Assumptions C40_short_refuted.

(** ** C41: dithering *)

(** The table: entry [k] is the f32 nearest to 16807^(k+1) mod (2^31-1) over 2^31-1. *)
Theorem C41_table : forall k, 0 <= k < 10000 ->
  exists x, index RAND_VALUES k = Ok x /\ nearest_f32 (seed k) (2 ^ 31 - 1) x.
Proof. exact random_value. Qed.
Print Assumptions C41_table.
(** The check value of the standard. *)
Theorem C41_last_seed : seed 9999 = 1043618065.
Proof. exact last_seed. Qed.
Print Assumptions C41_last_seed.
Example C41_first_entry : seed 0 = 16807 /\ exists x, index RAND_VALUES 0 = Ok x /\ x = S754_finite false 8605184 (-40).
Proof. split; [reflexivity|]. eexists. split; [vm_compute; reflexivity|]. vm_compute. reflexivity. Qed.

(** The place in the table for a row: always one of the first 500 entries, without panic. *)
Theorem C41_start : forall m row z0, 0 <= row < 2 ^ 63 -> 0 <= z0 < 2 ^ 63 ->
  dither_start m (row + 1) z0 = Ok (first_entry row z0) /\ 0 <= first_entry row z0 < 500.
Proof. exact start_ok. Qed.
Print Assumptions C41_start.
Example C41_start_case : first_entry 0 1 = 65 /\ first_entry 9999 1 = 0 /\ first_entry 3 0 = 229.
Proof. vm_compute. auto. Qed.

(** No parsed header makes the code dither (C44_zquantiz_refuted).  For the descriptions [z] with dithering a
    correct parser would make: the pixels of a row take the entries from [first_entry] on, round the table. *)
Theorem C41_dithered : forall gz m d f h f' t z ints scale zero blank,
  octets d -> rd_data (f_reader f) = d -> 0 <= rd_pos (f_reader f) -> next m f = (IOk h, f') -> h_xt h = XtBin t ->
  tiled d t (h_offset h) z -> tiles_hold gz m d t (h_offset h) z ints ->
  real_pixels (z_bitpix z) -> quantised d t (h_offset h) (h_values h) scale zero blank ->
  quantiser z <> ZNoDither -> 0 <= dither_seed z < 2 ^ 63 ->
  (forall row, 0 <= row < bt_naxis2 t -> Forall (fun v => is_blank (blank row) v = false) (ints row)) ->
  exists s fuel0, (let! data := get_table m f' t in pixels_new m (h_values h) t data z) = Ok s /\
    forall fuel n, (fuel0 <= fuel)%nat ->
    fst (tiles_run gz m fuel s n)
    = firstn n (map PixelOf (flat_map (fun row => dithered_pixels (quantiser z) (scale row) (zero row) (blank row)
                                                    (first_entry row (dither_seed z)) (ints row)) (upto (bt_naxis2 t))) ++ repeat PixEnd n).
Proof. exact dithered_no_blank. Qed.
Print Assumptions C41_dithered.

Definition ex_dithered (q : zquantiz) (z : zimage) : zimage :=
  mk_zimage (z_cmp z) (z_bitpix z) (z_naxisn z) (z_tilen z) (Some q) (z_dither0 z) (z_data_idx z).
Definition ex_run_dithered (m : mode) (q : zquantiz) (f' : fits) (vs : vmap) (t : bintable) (z : zimage) (n : nat) : option (list pixel_result) :=
  match (let! data := get_table m f' t in pixels_new m vs t data (ex_dithered q z)) with
  | Ok s => Some (fst (tiles_run ex_gz m 30 s n))
  | _ => None
  end.
Definition ex_dither_ints (row : Z) : list Z := if row =? 0 then [1; -2] else [-2147483647; 3000].
Definition ex_d1 : list Z := ex_floats "SUBTRACTIVE_DITHER_1" ex_dither_ints.
Example C41_dithered_case : forall m, exists h f' t z,
  found_tiles m ex_d1 h f' t z /\
  (tiledb ex_d1 t (h_offset h) (ex_dithered ZSubtractive1 z) && gzip_tilesb ex_gz ex_d1 t (h_offset h) (ex_dithered ZSubtractive1 z) ex_dither_ints = true) /\
  quantisedb ex_d1 t (h_offset h) (h_values h) ex_scale ex_zero (fun _ => Some 3) = true /\ dither_seed z = 1 /\
  ex_run_dithered m ZSubtractive1 f' (h_values h) t z 3
  = Some [PixelOf (PFloat (S754_finite false 8439135 (-24))); PixelOf (PFloat (S754_finite true 14815494 (-24))); PixelOf (PFloat (S754_finite true 8388608 9))] /\
  ex_run_dithered m ZSubtractive2 f' (h_values h) t z 3
  = Some [PixelOf (PFloat (S754_finite false 8439135 (-24))); PixelOf (PFloat (S754_finite true 14815494 (-24))); PixelOf (PFloat (S754_zero false))].
Proof. ex_tiles_check. Qed.
Example C41_dithered_case_entries : forall q,
  map (fun row => dithered_pixels q (ex_scale row) (ex_zero row) (Some 3) (first_entry row 1) (ex_dither_ints row)) [0; 1]
  = [[float_pixel q (ex_scale 0) (ex_zero 0) (Some 3) (random 65) 1; float_pixel q (ex_scale 0) (ex_zero 0) (Some 3) (random 66) (-2)];
     [float_pixel q (ex_scale 1) (ex_zero 1) (Some 3) (random 377) (-2147483647); float_pixel q (ex_scale 1) (ex_zero 1) (Some 3) (random 378) 3000]].
Proof. intros []; vm_compute; reflexivity. Qed.

(** With blank pixels, which do not count. *)
Theorem C41_dithered_partial : forall gz m d f h f' t z ints scale zero blank,
  octets d -> rd_data (f_reader f) = d -> 0 <= rd_pos (f_reader f) -> next m f = (IOk h, f') -> h_xt h = XtBin t ->
  tiled d t (h_offset h) z -> tiles_hold gz m d t (h_offset h) z ints ->
  real_pixels (z_bitpix z) -> quantised d t (h_offset h) (h_values h) scale zero blank ->
  quantiser z <> ZNoDither -> 0 <= dither_seed z < 2 ^ 63 ->
  exists s fuel0, (let! data := get_table m f' t in pixels_new m (h_values h) t data z) = Ok s /\
    forall fuel n, (fuel0 <= fuel)%nat ->
    fst (tiles_run gz m fuel s n)
    = firstn n (map PixelOf (flat_map (fun row => float_pixels (quantiser z) (scale row) (zero row) (blank row)
                                                    (first_entry row (dither_seed z)) (ints row)) (upto (bt_naxis2 t))) ++ repeat PixEnd n).
Proof. exact dithered_read. Qed.
Print Assumptions C41_dithered_partial.

(** So the pixels after a blank get the random number of their predecessor (the convention counts every pixel). *)
Definition ex_blank_ints (row : Z) : list Z := if row =? 0 then [3; 5] else [7; 9].
Definition ex_d2 : list Z := ex_floats "SUBTRACTIVE_DITHER_1" ex_blank_ints.
Theorem C41_blank_refuted : forall m, exists h f' t z,
  found_tiles m ex_d2 h f' t z /\
  (tiledb ex_d2 t (h_offset h) (ex_dithered ZSubtractive1 z) && gzip_tilesb ex_gz ex_d2 t (h_offset h) (ex_dithered ZSubtractive1 z) ex_blank_ints = true) /\
  quantisedb ex_d2 t (h_offset h) (h_values h) ex_scale ex_zero (fun _ => Some 3) = true /\ dither_seed z = 1 /\
  ex_run_dithered m ZSubtractive1 f' (h_values h) t z 2
  = Some [PixelOf (PFloat S754_nan); PixelOf (float_pixel ZSubtractive1 (ex_scale 0) (ex_zero 0) (Some 3) (random 65) 5)] /\
  dithered_pixels ZSubtractive1 (ex_scale 0) (ex_zero 0) (Some 3) (first_entry 0 1) [3; 5]
  = [PFloat S754_nan; float_pixel ZSubtractive1 (ex_scale 0) (ex_zero 0) (Some 3) (random 66) 5] /\
  float_pixel ZSubtractive1 (ex_scale 0) (ex_zero 0) (Some 3) (random 65) 5
  <> float_pixel ZSubtractive1 (ex_scale 0) (ex_zero 0) (Some 3) (random 66) 5.
Proof. ex_tiles_check. Qed.
Print Assumptions C41_blank_refuted.

(** At the end of the table the convention goes on with the next seed; the code goes on with the first entry. *)
Theorem C41_wrap_refuted : forall k v, is_blank (k_blank k) v = false ->
  (k_state k = QSub1 9999 -> exists x k', unquantize k v = Ok (x, k') /\ k_state k' = QSub1 0) /\
  (k_state k = QSub2 9999 -> exists x k', unquantize k v = Ok (x, k') /\ k_state k' = QSub2 0) /\
  first_entry 1 0 = 65.
Proof. exact table_wrapped. Qed.
Print Assumptions C41_wrap_refuted.
Example C41_wrap_case : is_blank (k_blank (mk_fkeys 0 2 None 0 ZSubtractive1 (f32_of_int 1) (S754_zero false) (Some 3) (QSub1 9999))) 5 = false.
Proof. reflexivity. Qed.
