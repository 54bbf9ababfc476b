(** Specification side for tile-compressed images (FITS standard, section 10). *)

From Coq Require Import String.
From Verif Require Import Base Text Card Reader Header Xtension Bytes Fits ImageIt BinTable Rice Float Tile.
From Verif Require Import SpecCard SpecXt SpecFits SpecImage SpecBin SpecRice.

(** ** Tiles in the table *)

(** The descriptor of format [f] at byte [p] of the file gives the place of an array in the heap. *)
Definition desc_place (d : list Z) (f : tform) (p : Z) : option Z :=
  match f with
  | TDesc32 _ => Some (SpecBin.be_value (slice d (p + 4) 4))
  | TDesc64 _ => Some (SpecBin.be_value (slice d (p + 8) 8))
  | TElem _ _ => None
  end.

(** The bytes of the file from the compressed tile of row [row] on; column [c] holds the tiles. *)
Definition tile_at (d : list Z) (t : bintable) (o c row : Z) (bytes : list Z) : Prop :=
  exists f p, format t c = Some f /\
    desc_place d f (o + row * bt_naxis1 t + column_start (bt_tforms t) c) = Some p /\
    bytes = skipn (Z.to_nat (o + bt_theap t + p)) d /\ o + bt_theap t + p < 2 ^ 63.

(** The columns before column [c] have one value per row. *)
Definition one_value (f : tform) : Prop := match f with TElem _ n => n = 1 | _ => True end.
Definition counted (t : bintable) (c : Z) : Prop := Forall one_value (firstn (Z.to_nat c) (bt_tforms t)).

(** ** Uncompressed bytes of a tile of 32-bit integers *)

Definition be4 (v : Z) : list Z := map (byte_of v) [3; 2; 1; 0].
(** Byte plane after byte plane, most significant first. *)
Definition planes (l : list Z) : list Z := flat_map (fun k => map (fun v => byte_of v k) l) [3; 2; 1; 0].

(** [bytes] is the compressed form of the integers [ints], preceding anything else.  For gzip the
    decoder is the judge; for RICE in a checked build see C38. *)
Definition holds_tile (gz : gunzip) (m : mode) (cmp : zcmp) (bytes ints : list Z) : Prop :=
  Forall (fun v => - 2 ^ 31 <= v < 2 ^ 31) ints /\
  match cmp with
  | ZGzip1 => fst (fst (gz bytes (4 * len ints))) = Some (flat_map be4 ints)
  | ZGzip2 => fst (fst (gz bytes (4 * len ints))) = Some (planes ints)
  | ZRice bs _ =>
    len ints + bs <= 2 ^ 31 /\
    exists x0 blocks, block_pixels blocks = ints /\ compressed RI32 bs x0 blocks bytes /\
      (m = Wrapping \/ gentle x0 ints /\ short_runs RI32 x0 blocks)
  | _ => False
  end.

(** ** Pixels *)

(** The integer pixel types keep the low bits of the integer. *)
Definition low_signed (bits v : Z) : Z := (v + 2 ^ (bits - 1)) mod 2 ^ bits - 2 ^ (bits - 1).
Definition int_pixel (b : bitpix) (v : Z) : pixel :=
  PInt (match b with BU8 => v mod 256 | BI16 => low_signed 16 v | _ => v end).

(** Results of [next]. *)
Inductive pixel_result := PixelOf (p : pixel) | PixEnd | PixPanic | PixFuel.
Definition tiles_do (gz : gunzip) (m : mode) (fuel : nat) (s : tiles) : pixel_result * tiles :=
  match tiles_next gz m fuel s with
  | (Some (Ok (Some p)), s') => (PixelOf p, s')
  | (Some (Ok None), s') => (PixEnd, s')
  | (Some (Err _), s') => (PixPanic, s')
  | (Some Panic, s') => (PixPanic, s')
  | (None, s') => (PixFuel, s')
  end.
Fixpoint tiles_run (gz : gunzip) (m : mode) (fuel : nat) (s : tiles) (n : nat) : list pixel_result * tiles :=
  match n with
  | O => ([], s)
  | S n' => let (x, s1) := tiles_do gz m fuel s in
            let (l, s2) := tiles_run gz m fuel s1 n' in (x :: l, s2)
  end.

(** The table of a tile-compressed image that can be read: the table lies in the file, its columns have
    values, the columns before the column of the tiles have one value each, and the tile size is
    positive and of a size that exists. *)
Definition tiled (d : list Z) (t : bintable) (o : Z) (z : zimage) : Prop :=
  table_inside d t o /\ bt_tforms t <> [] /\ columns_readable d (len d) t o false (all_columns t) /\
  counted t (z_data_idx z) /\ 1 <= product (z_tilen z) < 2 ^ 60 /\ Forall (fun x => 0 <= x) (z_tilen z).
(** [ints row] are the integers of the tile of row [row], for every row. *)
Definition tiles_hold (gz : gunzip) (m : mode) (d : list Z) (t : bintable) (o : Z) (z : zimage) (ints : Z -> list Z) : Prop :=
  forall row, 0 <= row < bt_naxis2 t -> len (ints row) = product (z_tilen z) /\
    exists bytes, tile_at d t o (z_data_idx z) row bytes /\ holds_tile gz m (z_cmp z) bytes (ints row).

(** Pixel types. *)
Definition whole_pixels (b : bitpix) : Prop := b = BU8 \/ b = BI16 \/ b = BI32.
Definition real_pixels (b : bitpix) : Prop := b = BF32 \/ b = BF64.
(** The number of tiles begun when [n] pixels are read. *)
Definition tiles_begun (z : zimage) (n : nat) : Z := (Z.of_nat n + product (z_tilen z) - 1) / product (z_tilen z).

(** ** Dithering (standard, section 10.2.1 and appendix I) *)

(** The generator of Park and Miller: 16807^(k+1) modulo 2^31 - 1. *)
Definition seed (k : Z) : Z := 16807 ^ (k + 1) mod (2 ^ 31 - 1).
(** [x] is the f32 nearest to [a / b], a number below 1 whose 24 bits are [mant]. *)
Definition nearest_f32 (a b : Z) (x : spec_float) : Prop :=
  exists mant e, x = S754_finite false mant e /\ e <= 0 /\ 2 ^ 23 <= Zpos mant < 2 ^ 24 /\
    2 * Z.abs (Zpos mant * b - a * 2 ^ (- e)) <= b.
(** Entry [k] of the crate's table, counted from 0. *)
Definition random (k : Z) : spec_float := nth (Z.to_nat k) RAND_VALUES S754_nan.
(** Where the crate starts in the table for row [row] (counted from 0). *)
Definition first_entry (row z0 : Z) : Z := 500 * seed ((row + z0) mod 10000) / (2 ^ 31 - 1).

Definition quantiser (z : zimage) : zquantiz := match z_quant z with Some q => q | None => ZNoDither end.
Definition dither_seed (z : zimage) : Z := match z_dither0 z with Some x => x | None => 0 end.

(** ** Quantised floats *)

Definition cell_start (t : bintable) (o row c : Z) : Z := o + row * bt_naxis1 t + column_start (bt_tforms t) c.
(** Column [c] of row [row] holds a float, which is [x] as f32. *)
Definition float_cell (d : list Z) (t : bintable) (o c row : Z) (x : spec_float) : Prop :=
  exists b,
    (format t c = Some (TElem TyE 1) /\ number_stored BF32 (slice d (cell_start t o row c) 4) b /\ x = f32_of_bits b) \/
    (format t c = Some (TElem TyD 1) /\ number_stored BF64 (slice d (cell_start t o row c) 8) b /\ x = f32_of_f64 (f64_of_bits b)).
(** Column [c] of row [row] holds an integer, the low 32 bits of which are [v]. *)
Definition int_cell (d : list Z) (t : bintable) (o c row v : Z) : Prop :=
  exists b,
    (format t c = Some (TElem TyB 1) /\ number_stored BU8 (slice d (cell_start t o row c) 1) b /\ v = b) \/
    (format t c = Some (TElem TyI 1) /\ number_stored BI16 (slice d (cell_start t o row c) 2) b /\ v = b) \/
    (format t c = Some (TElem TyJ 1) /\ number_stored BI32 (slice d (cell_start t o row c) 4) b /\ v = b) \/
    (format t c = Some (TElem TyK 1) /\ number_stored BI64 (slice d (cell_start t o row c) 8) b /\ v = low_signed 32 b).

(** Column [c] is the one of that name, and the columns before have one value each. *)
Definition column (t : bintable) (name : str) (c : Z) : Prop := first_named (bt_ttypes t) name c /\ counted t c.

(** The integer standing for NaN in a tile: from the column ZBLANK, else from the keyword. *)
Definition blank_keyword (vs : vmap) : option Z :=
  match get vs (chars "ZBLANK") with
  | Some (VInteger v _) => if (- 2 ^ 31 <=? v) && (v <? 2 ^ 31) then Some v else None
  | _ => None
  end.
Definition blank_of (d : list Z) (t : bintable) (o : Z) (vs : vmap) (row : Z) (b : option Z) : Prop :=
  (exists c v, column t (chars "ZBLANK") c /\ int_cell d t o c row v /\ b = Some v) \/
  (~ In (Some (chars "ZBLANK")) (bt_ttypes t) /\ b = blank_keyword vs).

(** The scale, zero and blank value of every tile. *)
Definition quantised (d : list Z) (t : bintable) (o : Z) (vs : vmap)
  (scale zero : Z -> spec_float) (blank : Z -> option Z) : Prop :=
  exists cs cz, column t (chars "ZSCALE") cs /\ column t (chars "ZZERO") cz /\
    forall row, 0 <= row < bt_naxis2 t ->
      float_cell d t o cs row (scale row) /\ float_cell d t o cz row (zero row) /\ blank_of d t o vs row (blank row).

(** The float of integer [v], in f32 arithmetic; [r] is the random number. *)
Definition is_blank (blank : option Z) (v : Z) : bool := match blank with Some b => b =? v | None => false end.
Definition half : spec_float := S754_finite false 8388608 (-24).
Definition float_pixel (q : zquantiz) (scale zero : spec_float) (blank : option Z) (r : spec_float) (v : Z) : pixel :=
  PFloat (if is_blank blank v then S754_nan
          else match q with
               | ZNoDither => f32_add (f32_mul (f32_of_int v) scale) zero
               | ZSubtractive1 => f32_add (f32_mul (f32_add (f32_sub (f32_of_int v) r) half) scale) zero
               | ZSubtractive2 =>
                 if v =? - 2147483647 then S754_zero false
                 else f32_add (f32_mul (f32_add (f32_sub (f32_of_int v) r) half) scale) zero
               end).

(** The pixels of a tile as the crate gives them: the place [k] in the table moves on with every pixel
    that is not blank, and from the end of the table to its beginning. *)
Fixpoint float_pixels (q : zquantiz) (scale zero : spec_float) (blank : option Z) (k : Z) (ints : list Z) : list pixel :=
  match ints with
  | [] => []
  | v :: r => float_pixel q scale zero blank (random k) v ::
              float_pixels q scale zero blank (if is_blank blank v then k else (k + 1) mod 10000) r
  end.
(** The same with the place moving on with every pixel. *)
Definition dithered_pixels (q : zquantiz) (scale zero : spec_float) (blank : option Z) (k : Z) (ints : list Z) : list pixel :=
  map (fun p => float_pixel q scale zero blank (random ((k + fst p) mod 10000)) (snd p)) (combine (upto (len ints)) ints).

(** The HDU iterator over [d], in some state, finds this tile-compressed image. *)
Definition found_tiles (m : mode) (d : list Z) (h : hdu) (f' : fits) (t : bintable) (z : zimage) : Prop :=
  octets d /\ exists f, rd_data (f_reader f) = d /\ 0 <= rd_pos (f_reader f) /\
    next m f = (IOk h, f') /\ h_xt h = XtBin t /\ bt_zimage t = Some z.
