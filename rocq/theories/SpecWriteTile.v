(** Specification side for tile-compressed images: what a program that follows the FITS
    standard writes (section 10.1). *)

From Verif Require Import Base Text Card Reader Header Xtension Bytes Fits ImageIt BinTable Rice Float Tile.
From Verif Require Import SpecCard SpecHeader SpecXt SpecFits SpecImage SpecBin SpecRice SpecTile SpecWrite SpecWriteTable.

(** ** Tiles of an image *)

(** The coordinates of the element number [k] of an array, the first axis running fastest, and back. *)
Fixpoint coords (dims : list Z) (k : Z) : list Z :=
  match dims with [] => [] | d :: r => k mod d :: coords r (k / d) end.
Fixpoint place (dims xs : list Z) : Z :=
  match dims, xs with d :: r, x :: xs' => x + d * place r xs' | _, _ => 0 end.

(** The image is cut in whole tiles. *)
Definition whole_tiles (axes tiles : list Z) : Prop := Forall2 (fun a t => 0 <= a /\ 1 <= t /\ a mod t = 0) axes tiles.
Fixpoint grid (axes tiles : list Z) : list Z :=
  match axes, tiles with a :: axes', t :: tiles' => a / t :: grid axes' tiles' | _, _ => [] end.
(** Coordinates [x] in the tile with the coordinates [q]. *)
Fixpoint in_tile (tiles q x : list Z) : list Z :=
  match tiles, q, x with
  | t :: tiles', q0 :: q', x0 :: x' => q0 * t + x0 :: in_tile tiles' q' x'
  | _, _, _ => []
  end.
(** The pixels of tile number [k]. *)
Definition tile_pixels (axes tiles pixels : list Z) (k : Z) : list Z :=
  map (fun p => nth (Z.to_nat (place axes (in_tile tiles (coords (grid axes tiles) k) (coords tiles p)))) pixels 0)
      (upto (product tiles)).

(** Tilings in which the pixels of a tile follow each other in the image: the first axes whole, then
    a part of one, then one by one.  Rows are such tiles. *)
Inductive slabs : list Z -> list Z -> Prop :=
| slabs_single axes : slabs axes (map (fun _ => 1) axes)
| slabs_part a t axes : 0 <= a -> 1 <= t -> a mod t = 0 -> slabs (a :: axes) (t :: map (fun _ => 1) axes)
| slabs_full a axes tiles : 1 <= a -> slabs axes tiles -> slabs (a :: axes) (a :: tiles).

(** ** Keywords *)

(** An axis with its ZTILE keyword, if there is one; without, tiles are rows. *)
Definition zaxis := (Z * option Z)%type.
Fixpoint tile_sizes (i : Z) (l : list zaxis) : list Z :=
  match l with
  | [] => []
  | (a, o) :: r => match o with Some t => t | None => if i =? 1 then a else 1 end :: tile_sizes (i + 1) r
  end.
Fixpoint zaxis_entries (i : Z) (l : list zaxis) : list (str * said) :=
  match l with
  | [] => []
  | (a, o) :: r =>
    (indexed (chars "ZNAXIS") i, SaysInt a) ::
    match o with Some t => [(indexed (chars "ZTILE") i, SaysInt t)] | None => [] end ++ zaxis_entries (i + 1) r
  end.
Fixpoint untiled (i : Z) (l : list zaxis) : list str :=
  match l with
  | [] => []
  | (_, o) :: r => match o with Some _ => [] | None => [indexed (chars "ZTILE") i] end ++ untiled (i + 1) r
  end.
(** The parameters of the compression. *)
Fixpoint param_entries (i : Z) (l : list (str * Z)) : list (str * said) :=
  match l with
  | [] => []
  | (n, v) :: r => (indexed (chars "ZNAME") i, SaysText n) :: (indexed (chars "ZVAL") i, SaysInt v) :: param_entries (i + 1) r
  end.

(** A compressed image. *)
Record zpicture := mk_zpicture {
  zp_cmp : zcmp; zp_bitpix : bitpix; zp_axes : list zaxis; zp_params : list (str * Z); zp_pixels : list Z }.
Definition zp_dims (p : zpicture) : list Z := map fst (zp_axes p).
Definition zp_tiles (p : zpicture) : list Z := tile_sizes 1 (zp_axes p).

Definition cmp_name (c : zcmp) : str :=
  match c with
  | ZGzip1 => chars "GZIP_1" | ZGzip2 => chars "GZIP_2" | ZRice _ _ => chars "RICE_1"
  | ZPlio1 => chars "PLIO_1" | ZHcompress1 => chars "HCOMPRESS_1"
  end.
Definition zp_entries (p : zpicture) : list (str * said) :=
  [(chars "ZIMAGE", SaysLogical true); (chars "ZCMPTYPE", SaysText (cmp_name (zp_cmp p)));
   (chars "ZBITPIX", SaysInt (bitpix_code (zp_bitpix p))); (chars "ZNAXIS", SaysInt (len (zp_axes p)))] ++
  zaxis_entries 1 (zp_axes p) ++ param_entries 1 (zp_params p).

(** The block size of RICE, 32 if it is not given; integers are compressed as 4 bytes, and with gzip
    only images of 4-byte integers are (see C40).  Those of a float image are. *)
Definition zp_compression (p : zpicture) : Prop :=
  match zp_cmp p with
  | ZGzip1 | ZGzip2 => zp_bitpix p = BI32 \/ real_pixels (zp_bitpix p)
  | ZRice bs n =>
    n = 4 /\ (whole_pixels (zp_bitpix p) \/ real_pixels (zp_bitpix p)) /\ (forall v, In (chars "BYTEPIX", v) (zp_params p) -> v = 4) /\
    (In (chars "BLOCKSIZE", bs) (zp_params p) /\ 0 <= bs < 256 /\ (forall v, In (chars "BLOCKSIZE", v) (zp_params p) -> v = bs) \/
     (forall v, ~ In (chars "BLOCKSIZE", v) (zp_params p)) /\ bs = 32)
  | _ => False
  end.

(** The record is about a parameter. *)
Definition parameter_record (r : list Z) : Prop :=
  (exists j, has_keyword r (chars "ZNAME" ++ j)) \/
  (has_keyword r (chars "HIERARCH") /\ exists w j, skipn 9 r = w ++ chars "ZNAME" ++ j /\ Forall white w).
(** There are no parameters but those of the image; for gzip it does not matter. *)
Definition is_rice (c : zcmp) : Prop := match c with ZRice _ _ => True | _ => False end.
Definition only_parameters (p : zpicture) (s : source) : Prop :=
  is_rice (zp_cmp p) -> forall r, In r (s_records s) -> parameter_record r -> exists n, In n (map fst (param_entries 1 (zp_params p))) /\ has_keyword r n.

(** ** Tiles in the table *)

(** [bytes] is the compressed form of the integers [ints].  For gzip the decoder is the judge, and it may
    not read further; in a checked build see C38 for RICE. *)
Definition coded_tile (gz : gunzip) (m : mode) (cmp : zcmp) (bytes ints : list Z) : Prop :=
  match cmp with
  | ZGzip1 => forall rest, fst (fst (gz (bytes ++ rest) (4 * len ints))) = Some (flat_map be4 ints)
  | ZGzip2 => forall rest, fst (fst (gz (bytes ++ rest) (4 * len ints))) = Some (planes ints)
  | ZRice bs _ =>
    len ints + bs <= 2 ^ 31 /\
    exists x0 blocks, block_pixels blocks = ints /\ compressed RI32 bs x0 blocks bytes /\
      (m = Wrapping \/ gentle x0 ints /\ short_runs RI32 x0 blocks)
  | _ => False
  end.

(** The image written as an extension: a binary table, tile number [k] in row [k] of the column
    COMPRESSED_DATA, which is number [c].  There may be other columns; those before have one value.
    There are the keywords [more], but not the keywords [absent]. *)
Definition tiled_table (gz : gunzip) (m : mode) (p : zpicture) (more : list (str * said)) (absent : list str)
  (cols : list tcolumn) (rows : list (list (list (list Z)))) (c : Z) (s : source) : Prop :=
  exists f,
    len (zp_axes p) <= 99 /\ len (zp_params p) <= 999 /\ Forall (fun n => whole (SaysText (fst n))) (zp_params p) /\
    zp_compression p /\ whole_tiles (zp_dims p) (zp_tiles p) /\ product (zp_tiles p) < 2 ^ 60 /\
    len (zp_pixels p) = product (zp_dims p) /\
    first_named (map tc_name cols) (chars "COMPRESSED_DATA") c /\
    nth_error (forms cols) (Z.to_nat c) = Some f /\ (f = TDesc32 TyB \/ f = TDesc64 TyB) /\
    Forall one_value (firstn (Z.to_nat c) (forms cols)) /\
    len rows = product (grid (zp_dims p) (zp_tiles p)) /\
    (forall k cells, nth_error rows k = Some cells -> exists bytes,
       nth_error cells (Z.to_nat c) = Some (map (fun b => [b]) bytes) /\
       coded_tile gz m (zp_cmp p) bytes (tile_pixels (zp_dims p) (zp_tiles p) (zp_pixels p) (Z.of_nat k))) /\
    table_with (zp_entries p ++ more) (untiled 1 (zp_axes p) ++ absent) cols rows s /\ only_parameters p s.

(** An integer image. *)
Definition zpicture_written (gz : gunzip) (m : mode) (p : zpicture) (s : source) : Prop :=
  exists cols rows c, whole_pixels (zp_bitpix p) /\ Forall (in_range (zp_bitpix p)) (zp_pixels p) /\
    tiled_table gz m p [] [] cols rows c s.

(** ** Float images *)

(** A float image is written as integers; [fp_scale], [fp_zero] and [fp_blank] are the numbers of
    tile [k]: pixels are integer * scale + zero, and the integer [fp_blank] stands for NaN. *)
Record fpicture := mk_fpicture { fp_ints : zpicture; fp_scale : Z -> spec_float; fp_zero : Z -> spec_float; fp_blank : Z -> option Z }.

(** The column [name], of one number per row which is the f32 [x k] in row [k], given as f32 or as f64. *)
Definition float_column (cols : list tcolumn) (rows : list (list (list (list Z)))) (name : str) (x : Z -> spec_float) : Prop :=
  exists c f, first_named (map tc_name cols) name c /\ nth_error (forms cols) (Z.to_nat c) = Some f /\
    Forall one_value (firstn (Z.to_nat c) (forms cols)) /\
    forall k cells, nth_error rows k = Some cells -> exists b, nth_error cells (Z.to_nat c) = Some [[b]] /\
      (f = TElem TyE 1 /\ x (Z.of_nat k) = f32_of_bits b \/ f = TElem TyD 1 /\ x (Z.of_nat k) = f32_of_f64 (f64_of_bits b)).
(** The column ZBLANK, of integers. *)
Definition blank_column (cols : list tcolumn) (rows : list (list (list (list Z)))) (blank : Z -> option Z) : Prop :=
  exists c f, first_named (map tc_name cols) (chars "ZBLANK") c /\ nth_error (forms cols) (Z.to_nat c) = Some f /\
    (f = TElem TyB 1 \/ f = TElem TyI 1 \/ f = TElem TyJ 1) /\
    Forall one_value (firstn (Z.to_nat c) (forms cols)) /\
    forall k cells, nth_error rows k = Some cells ->
      exists b, nth_error cells (Z.to_nat c) = Some [[b]] /\ blank (Z.of_nat k) = Some b.

(** The keyword ZBLANK; and the keywords about dithering: none, one that tells that there is none, or a
    method and its seed. *)
Inductive dithering := NoDither | Dither1 (seed : Z) | Dither2 (seed : Z).
Definition dither_entries (told : option dithering) : list (str * said) :=
  match told with
  | None => []
  | Some NoDither => [(chars "ZQUANTIZ", SaysText (chars "NO_DITHER"))]
  | Some (Dither1 n) => [(chars "ZQUANTIZ", SaysText (chars "SUBTRACTIVE_DITHER_1")); (chars "ZDITHER0", SaysInt n)]
  | Some (Dither2 n) => [(chars "ZQUANTIZ", SaysText (chars "SUBTRACTIVE_DITHER_2")); (chars "ZDITHER0", SaysInt n)]
  end.
Definition float_entries (blank : option Z) (told : option dithering) : list (str * said) :=
  match blank with Some b => [(chars "ZBLANK", SaysInt b)] | None => [] end ++ dither_entries told.
Definition fpicture_with (told : option dithering) (gz : gunzip) (m : mode) (p : fpicture) (s : source) : Prop :=
  exists cols rows c kb,
    real_pixels (zp_bitpix (fp_ints p)) /\ Forall (in_range BI32) (zp_pixels (fp_ints p)) /\
    float_column cols rows (chars "ZSCALE") (fp_scale p) /\ float_column cols rows (chars "ZZERO") (fp_zero p) /\
    (blank_column cols rows (fp_blank p) \/
     ~ In (Some (chars "ZBLANK")) (map tc_name cols) /\ (forall k, fp_blank p k = kb) /\
     match kb with Some b => in_range BI32 b | None => True end) /\
    tiled_table gz m (fp_ints p) (float_entries kb told) [chars "ZBLANK"; chars "ZQUANTIZ"] cols rows c s.
Definition fpicture_written (gz : gunzip) (m : mode) (p : fpicture) (s : source) : Prop :=
  exists told, fpicture_with told gz m p s.

(** ** A writer *)

(** Bits to bytes, filled up with zeros. *)
Definition byte_of_bits (l : list bool) : Z := fold_left (fun a (b : bool) => 2 * a + if b then 1 else 0) l 0.
Fixpoint pack (l : list bool) : list Z :=
  match l with
  | b7 :: b6 :: b5 :: b4 :: b3 :: b2 :: b1 :: b0 :: r => byte_of_bits [b7; b6; b5; b4; b3; b2; b1; b0] :: pack r
  | [] => []
  | _ => [byte_of_bits (firstn 8 (l ++ repeat false 8))]
  end.
Definition rice_bytes (blocks : list (coding * list Z)) : list Z :=
  let x0 := hd 0 (block_pixels blocks) in encode BI32 x0 ++ pack (blocks_code RI32 x0 blocks).

(** The image in one column; [blocks k] is the chosen coding of tile [k]; [more k] are the cells of the
    further columns. *)
Definition tile_column : tcolumn := mk_tcolumn (chars "1PB") (TDesc32 TyB) (Some (chars "COMPRESSED_DATA")).
Definition zp_rows (p : zpicture) (blocks : Z -> list (coding * list Z)) (more : Z -> list (list (list Z))) : list (list (list (list Z))) :=
  map (fun k => map (fun b => [b]) (rice_bytes (blocks k)) :: more k) (upto (product (grid (zp_dims p) (zp_tiles p)))).
Definition write_zpicture (p : zpicture) (blocks : Z -> list (coding * list Z)) : source :=
  write_table_with (zp_entries p) ([tile_column], zp_rows p blocks (fun _ => [])).

(** Float images: scale and zero as f64, the bits of which are given. *)
Record quantised_image := mk_quantised { qi_ints : zpicture; qi_scale : Z -> Z; qi_zero : Z -> Z; qi_blank : option Z; qi_told : option dithering }.
Definition qi_picture (q : quantised_image) : fpicture :=
  mk_fpicture (qi_ints q) (fun k => f32_of_f64 (f64_of_bits (qi_scale q k))) (fun k => f32_of_f64 (f64_of_bits (qi_zero q k)))
              (fun _ => qi_blank q).
Definition scale_columns : list tcolumn :=
  [mk_tcolumn (chars "1D") (TElem TyD 1) (Some (chars "ZSCALE")); mk_tcolumn (chars "1D") (TElem TyD 1) (Some (chars "ZZERO"))].
Definition write_quantised (q : quantised_image) (blocks : Z -> list (coding * list Z)) : source :=
  write_table_with (zp_entries (qi_ints q) ++ float_entries (qi_blank q) (qi_told q))
    (tile_column :: scale_columns, zp_rows (qi_ints q) blocks (fun k => [[[qi_scale q k]]; [[qi_zero q k]]])).

(** What can be written, and codings that fit; [w] is the length of a row. *)
Definition codings_ok (p : zpicture) (bs w : Z) (blocks : Z -> list (coding * list Z)) : Prop :=
  len (zp_axes p) <= 99 /\ Forall (fun a => fst a < 2 ^ 63 /\ match snd a with Some t => t < 2 ^ 63 | None => True end) (zp_axes p) /\
  zp_cmp p = ZRice bs 4 /\ zp_params p = [(chars "BLOCKSIZE", bs); (chars "BYTEPIX", 4)] /\ 0 <= bs < 256 /\
  whole_tiles (zp_dims p) (zp_tiles p) /\ product (zp_tiles p) + bs <= 2 ^ 31 /\
  len (zp_pixels p) = product (zp_dims p) /\
  (forall k, 0 <= k < product (grid (zp_dims p) (zp_tiles p)) ->
     block_pixels (blocks k) = tile_pixels (zp_dims p) (zp_tiles p) (zp_pixels p) k /\
     blocks_ok RI32 bs (hd 0 (block_pixels (blocks k))) (blocks k)) /\
  product (grid (zp_dims p) (zp_tiles p)) * w + 2 ^ 31 < 2 ^ 63 /\
  total (map (fun k => len (rice_bytes (blocks k))) (upto (product (grid (zp_dims p) (zp_tiles p))))) < 2 ^ 31.
Definition zpicture_ok (p : zpicture) (bs : Z) (blocks : Z -> list (coding * list Z)) : Prop :=
  whole_pixels (zp_bitpix p) /\ Forall (in_range (zp_bitpix p)) (zp_pixels p) /\ codings_ok p bs 8 blocks.
Definition quantised_ok (q : quantised_image) (bs : Z) (blocks : Z -> list (coding * list Z)) : Prop :=
  real_pixels (zp_bitpix (qi_ints q)) /\ Forall (in_range BI32) (zp_pixels (qi_ints q)) /\ codings_ok (qi_ints q) bs 24 blocks /\
  (forall k, in_range BF64 (qi_scale q k) /\ in_range BF64 (qi_zero q k)) /\
  match qi_blank q with Some b => in_range BI32 b | None => True end /\
  match qi_told q with Some (Dither1 n) | Some (Dither2 n) => 1 <= n <= 10000 | _ => True end.
(** For builds with overflow checks (see C38). *)
Definition gently_coded (p : zpicture) (blocks : Z -> list (coding * list Z)) : Prop :=
  forall k, 0 <= k < product (grid (zp_dims p) (zp_tiles p)) ->
    gentle (hd 0 (block_pixels (blocks k))) (block_pixels (blocks k)) /\ short_runs RI32 (hd 0 (block_pixels (blocks k))) (blocks k).

(** A coding for all images: every block as it is. *)
Fixpoint raw_blocks (fuel : nat) (bs : Z) (l : list Z) : list (coding * list Z) :=
  match fuel, l with
  | S fuel', _ :: _ => (Raw, firstn (Z.to_nat bs) l) :: raw_blocks fuel' bs (skipn (Z.to_nat bs) l)
  | _, _ => []
  end.
Definition uncoded (p : zpicture) (bs k : Z) : list (coding * list Z) :=
  raw_blocks (length (zp_pixels p)) bs (tile_pixels (zp_dims p) (zp_tiles p) (zp_pixels p) k).

(** ** Files of images, tables and compressed images *)

Inductive zcontent := Plain (c : content) | Compressed (p : zpicture) | CompressedFloat (p : fpicture).
Definition zcontent_written (gz : gunzip) (m : mode) (c : zcontent) (ks : hkind * source) : Prop :=
  match c with
  | Plain c => content_written c ks
  | Compressed p => fst ks = HBinTable /\ zpicture_written gz m p (snd ks)
  | CompressedFloat p => fst ks = HBinTable /\ fpicture_written gz m p (snd ks)
  end.
(** The pixels tile after tile. *)
Definition tilewise (p : zpicture) : list Z :=
  flat_map (tile_pixels (zp_dims p) (zp_tiles p) (zp_pixels p)) (upto (product (grid (zp_dims p) (zp_tiles p)))).
(** The same for floats: the f32 of the integer times the scale plus the zero of the tile. *)
Definition float_value (p : fpicture) (k v : Z) : spec_float :=
  if match fp_blank p k with Some b => v =? b | None => false end then S754_nan
  else f32_add (f32_mul (f32_of_int v) (fp_scale p k)) (fp_zero p k).
Definition floats_tilewise (p : fpicture) : list spec_float :=
  flat_map (fun k => map (float_value p k) (tile_pixels (zp_dims (fp_ints p)) (zp_tiles (fp_ints p)) (zp_pixels (fp_ints p)) k))
           (upto (product (grid (zp_dims (fp_ints p)) (zp_tiles (fp_ints p))))).
Definition zimage_of (p : zpicture) (z : zimage) : Prop :=
  z_cmp z = zp_cmp p /\ z_bitpix z = zp_bitpix p /\ z_naxisn z = zp_dims p /\ z_tilen z = zp_tiles p.
Definition zshown (c : zcontent) (i : item) : Prop :=
  let tiled p := exists h t z, i = IOk h /\ h_xt h = XtBin t /\ bt_zimage t = Some z /\ zimage_of p z in
  match c with
  | Plain c => shown c i
  | Compressed p => tiled p
  | CompressedFloat p => tiled (fp_ints p)
  end.
Definition zcontained (gz : gunzip) (m : mode) (c : zcontent) (i : item) (f : fits) : Prop :=
  let gives l := exists h t st fuel0, i = IOk h /\ h_xt h = XtBin t /\ get_tiles m f (h_values h) t = Some (Ok st) /\
      forall fuel n, (fuel0 <= fuel)%nat -> fst (tiles_run gz m fuel st n) = firstn n (map PixelOf l ++ repeat PixEnd n) in
  match c with
  | Plain c => contained m c i f
  | Compressed p => gives (map PInt (tilewise p))
  | CompressedFloat p => gives (map PFloat (floats_tilewise p))
  end.

(** Contents with their coding. *)
Inductive zwritable :=
| WPlain (c : content)
| WCompressed (p : zpicture) (bs : Z) (blocks : Z -> list (coding * list Z))
| WQuantised (q : quantised_image) (bs : Z) (blocks : Z -> list (coding * list Z)).
Definition zwritable_ok (m : mode) (w : zwritable) : Prop :=
  match w with
  | WPlain c => content_ok c
  | WCompressed p bs blocks => zpicture_ok p bs blocks /\ (m = Wrapping \/ gently_coded p blocks)
  | WQuantised q bs blocks => quantised_ok q bs blocks /\ (m = Wrapping \/ gently_coded (qi_ints q) blocks)
  end.
Definition zwritten (w : zwritable) : zcontent :=
  match w with WPlain c => Plain c | WCompressed p _ _ => Compressed p | WQuantised q _ _ => CompressedFloat (qi_picture q) end.
Definition write_zcontent (w : zwritable) : hkind * source :=
  match w with
  | WPlain c => write_content c
  | WCompressed p _ blocks => (HBinTable, write_zpicture p blocks)
  | WQuantised q _ blocks => (HBinTable, write_quantised q blocks)
  end.
Definition write_zfile (p : picture) (ws : list zwritable) : list (hkind * source) :=
  (HPrimary, write_image HPrimary p) :: map write_zcontent ws.
