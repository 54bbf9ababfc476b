(** Tile-compressed images with tiles that are missing, cut off or too short. *)

From Verif Require Import Base Card Header Xtension Bytes BinTable Rice Float Tile SpecCard SpecXt SpecBin SpecRice SpecTile.

(** The first [k] tiles hold the pixels of [ints]; nothing is said of the others. *)
Definition first_tiles_hold (gz : gunzip) (m : mode) (d : list Z) (t : bintable) (o : Z) (z : zimage) (ints : Z -> list Z) (k : Z) : Prop :=
  forall row, 0 <= row < k -> len (ints row) = product (z_tilen z) /\
    exists bytes, tile_at d t o (z_data_idx z) row bytes /\ holds_tile gz m (z_cmp z) bytes (ints row).

(** A RICE code of blocks, as in [SpecTile.holds_tile], whatever the number of pixels. *)
Definition rice_tile (m : mode) (bs : Z) (bytes ints : list Z) : Prop :=
  Forall (fun v => - 2 ^ 31 <= v < 2 ^ 31) ints /\
  exists x0 blocks, block_pixels blocks = ints /\ compressed RI32 bs x0 blocks bytes /\
    (m = Wrapping \/ gentle x0 ints /\ short_runs RI32 x0 blocks).

(** A tile of [n] pixels that cannot be had from [bytes]: the gzip decoder cannot make the [4 * n] bytes
    of it, or the RICE code of [n] pixels goes on after the last of the bytes. *)
Definition broken_tile (gz : gunzip) (m : mode) (cmp : zcmp) (n : Z) (bytes : list Z) : Prop :=
  match cmp with
  | ZGzip1 | ZGzip2 => fst (fst (gz bytes (4 * n))) = None
  | ZRice bs _ =>
    n + bs <= 2 ^ 31 /\
    exists x0 blocks more, len (block_pixels blocks) = n /\ Forall (fun v => - 2 ^ 31 <= v < 2 ^ 31) (block_pixels blocks) /\
      octets more /\ compressed RI32 bs x0 blocks (bytes ++ more) /\
      8 * (len bytes - 4) < len (blocks_code RI32 x0 blocks) /\
      (m = Wrapping \/ gentle x0 (block_pixels blocks) /\ short_runs RI32 x0 blocks)
  | _ => False
  end.

(** A tile with the code of fewer pixels than the tile size: the last tile of an image the tiles do not
    divide. *)
Definition short_tile (m : mode) (cmp : zcmp) (n : Z) (bytes ints : list Z) : Prop :=
  match cmp with
  | ZRice bs _ => len ints < n /\ n + bs < 2 ^ 31 /\ rice_tile m bs bytes ints
  | _ => False
  end.

(** What the iterator makes of the integers [is] of the tile in row [row]: integers of the type of
    the image, or floats scaled with the values of the row. *)
Definition whole_image (z : zimage) (pix : Z -> list Z -> list pixel) : Prop :=
  whole_pixels (z_bitpix z) /\ ~ (z_bitpix z = BU8 /\ z_cmp z = ZGzip2) /\
  forall row is, pix row is = map (int_pixel (z_bitpix z)) is.
Definition scaled_image (d : list Z) (t : bintable) (o : Z) (vs : vmap) (z : zimage) (pix : Z -> list Z -> list pixel) : Prop :=
  real_pixels (z_bitpix z) /\ exists scale zero blank, quantised d t o vs scale zero blank /\
  forall row is, pix row is = map (float_pixel ZNoDither (scale row) (zero row) (blank row) S754_nan) is.
