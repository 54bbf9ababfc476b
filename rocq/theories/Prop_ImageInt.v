(** The decoder of the [image] crate (C50, C51) and the end of iteration (C54).  [decoder_new] is the model
    of [FitsDecoder::new], [read_image] that of [read_image] into the buffer it is given; [SpecImageInt]
    holds the specification side.  As for tile-compressed images the theorems hold for every gzip decoder. *)

From Coq Require Import String List.
From Verif Require Import Base Utf8 Text Card Reader Header Xtension Bytes Fits ImageIt BinTable Rice Float Tile ImageInt.
From Verif Require Import SpecUtf8 SpecCard SpecHeader SpecXt SpecFits SpecImage SpecBin SpecTile SpecImageInt.
From Verif Require Import HeaderProofs FitsProofs4 TileProofs6 ImageIntProofs2 ImageIntProofs3 ImageIntProofs4 ImageIntProofs5.
From Verif Require Import Prop_Fits Prop_Bin Prop_Tile.
Local Open Scope string_scope.
Local Open Scope list_scope.
Local Open Scope Z_scope.

(** ** C50: where every value goes *)

(** With the data unit complete and a buffer of the size the crate asks for, the result is this list of
    bytes: pixel after pixel, channel [c] of pixel [i] holding the sample of value number [place]
    ([c * w * h + i] with three planes, [i] with one). *)
Theorem C50_complete : forall gz m fuel d dec im sc,
  octets d -> decoder_new m fuel (mk_reader d 0) = Some (Ok dec) -> de_kind dec = KImage im -> size_fits im ->
  scaling (h_values (de_hdu dec)) sc ->
  h_offset (de_hdu dec) + width (im_bitpix im) * pixel_count im <= len d ->
  let b := im_bitpix im in let n := de_width dec * de_height dec in
  exists values,
    len values = n * (if de_rgb dec then 3 else 1) /\
    stored d (h_offset (de_hdu dec)) b values /\
    forall buf, len buf = ImageInt.total_bytes dec ->
      read_image gz m fuel dec buf
      = Some (Ok (flat_map (fun i => flat_map (fun c =>
            image_sample b sc (nth (Z.to_nat (place (de_rgb dec) n c i)) values 0))
          (upto (channels b (de_rgb dec)))) (upto n))).
Proof. exact image_complete. Qed.
Print Assumptions C50_complete.

(** Truncated files and buffers of any length: what is there is put in its place, and the rest of the
    buffer stays as it was. *)
Theorem C50_layout : forall gz m fuel d dec im sc,
  octets d -> decoder_new m fuel (mk_reader d 0) = Some (Ok dec) -> de_kind dec = KImage im -> size_fits im ->
  scaling (h_values (de_hdu dec)) sc ->
  exists values,
    len values = Z.min (pixel_count im) ((len d - h_offset (de_hdu dec)) / width (im_bitpix im)) /\
    stored d (h_offset (de_hdu dec)) (im_bitpix im) values /\
    forall buf, exists after, read_image gz m fuel dec buf = Some (Ok after) /\
      laid_out (depth (im_bitpix im)) (channels (im_bitpix im) (de_rgb dec)) (place (de_rgb dec))
        (map (image_sample (im_bitpix im) sc) values) buf after.
Proof. exact image_decoded. Qed.
Print Assumptions C50_layout.

(** The bytes of a sample are a little-endian number, which shows the value: for 8 and 16 bits the nearest
    integer to [BSCALE * v + BZERO] within the range of the unsigned type, for 32 and 64 bits that number as
    a fraction of the greatest value of the type, as an f32; floats are unscaled. *)
Theorem C50_samples : forall b sc v, in_range b v ->
  octets (image_sample b sc v) /\ len (image_sample b sc v) = depth b /\
  sample_value b sc v (le_value (image_sample b sc v)).
Proof. exact sample_means. Qed.
Print Assumptions C50_samples.

(** Integer scaling keywords, written as integers or as reals, are exact. *)
Theorem C50_integer_scale : forall vs sc a z v,
  scaling vs sc -> keyword_integer vs (chars "BSCALE") 1 a -> keyword_integer vs (chars "BZERO") 0 z ->
  - 2 ^ 53 < a < 2 ^ 53 -> - 2 ^ 53 < z < 2 ^ 53 -> - 2 ^ 53 < v * a + z < 2 ^ 53 ->
  (in_range BU8 v -> le_value (image_sample BU8 sc v) = limited 0 255 (v * a + z)) /\
  (in_range BI16 v -> le_value (image_sample BI16 sc v) = limited 0 65535 (v * a + z)).
Proof. exact scaled_samples. Qed.
Print Assumptions C50_integer_scale.

(** A 2 x 1 image of three planes of unsigned 16-bit numbers, by the convention BZERO = 32768. *)
Definition ex_planes : list Z :=
  file_bytes [(HPrimary, ex_source ["SIMPLE  = T"; "BITPIX  = 8"; "NAXIS   = 0"] []);
    (HImage, ex_source ["XTENSION= 'IMAGE   '"; "BITPIX  = 16"; "NAXIS   = 3"; "NAXIS1  = 2"; "NAXIS2  = 1"; "NAXIS3  = 3";
                        "BZERO   = 32768.0"; "BSCALE  = 1"]
       [128; 0; 128; 1; 255; 255; 0; 0; 127; 255; 1; 44])].
Definition ex_shift : scale := mk_scale (f64_of_int 32768) (f64_of_int 1).
Definition decoded (gz : gunzip) (m : mode) (d buf : list Z) : option (list Z) :=
  match decoder_new m 9 (mk_reader d 0) with
  | Some (Ok dec) => match read_image gz m 30 dec buf with Some (Ok l) => Some l | _ => None end
  | _ => None
  end.
Lemma ex_decoder m d (P : decoder -> Prop) :
  match decoder_new m 9 (mk_reader d 0) with Some (Ok dec) => P dec | _ => False end ->
  exists dec, decoder_new m 9 (mk_reader d 0) = Some (Ok dec) /\ P dec.
Proof. destruct (decoder_new m 9 (mk_reader d 0)) as [[dec| |]|]; try contradiction. eauto. Qed.

Example C50_planes : octets ex_planes /\ forall m, exists dec, decoder_new m 9 (mk_reader ex_planes 0) = Some (Ok dec) /\
  de_kind dec = KImage (mk_image BI16 [2; 1; 3]) /\ de_rgb dec = true /\ ImageInt.total_bytes dec = 12 /\
  scale_of (h_values (de_hdu dec)) = Ok ex_shift /\ h_offset (de_hdu dec) = 5760 /\ len ex_planes = 8640 /\
  decoded ex_gz m ex_planes (repeat 9 13) = Some [0; 0; 255; 127; 255; 255;   1; 0; 0; 128; 44; 129; 9].
Proof.
  split; [apply octetsb_ok; vm_compute; reflexivity|]. intro m. apply ex_decoder. destruct m; vm_compute; repeat split.
Qed.
Example C50_planes_hypotheses : size_fits (mk_image BI16 [2; 1; 3]) /\ (forall vs, scale_of vs = Ok ex_shift -> scaling vs ex_shift) /\
  5760 + width BI16 * pixel_count (mk_image BI16 [2; 1; 3]) <= 8640.
Proof.
  split; [|split; [intros vs; apply scale_of_iff|vm_compute; discriminate]]. split; [|vm_compute; reflexivity].
  intros l r E. destruct l as [|a [|b [|c [|? ?]]]]; inversion E; subst; vm_compute; reflexivity.
Qed.
Example C50_scale_ex :
  (let vs := [(chars "BZERO", VFloat (FDec false 327680 (-1)) None); (chars "BSCALE", VInteger 1 None)] in
   scale_of vs = Ok ex_shift /\ keyword_integer vs (chars "BSCALE") 1 1 /\ keyword_integer vs (chars "BZERO") 0 32768) /\
  image_sample BI16 ex_shift (-32768) = [0; 0] /\ image_sample BI16 ex_shift 0 = [0; 128] /\
  image_sample BU8 (mk_scale (f64_of_int (-10)) (f64_of_int 2)) 140 = [255] /\
  image_sample BI16 default_scale (-3) = [0; 0] /\
  image_sample BU8 (mk_scale (f64_of_dec false 5 (-1)) (f64_of_int 1)) 2 = [3] /\
  f32_of_bits (le_value (image_sample BI32 default_scale (2 ^ 31 - 1))) = f32_of_int 1 /\
  image_sample BF32 default_scale 1065353216 = [0; 0; 128; 63].
Proof. vm_compute. repeat split; discriminate. Qed.

(** A 32-bit image of one plane: each value goes to the three channels.  The file ends within the second
    value, and the rest of the buffer is kept. *)
Definition ex_grey : list Z :=
  header_bytes (ex_source ["SIMPLE  = T"; "BITPIX  = -32"; "NAXIS   = 2"; "NAXIS1  = 2"; "NAXIS2  = 1"] []) ++ [63; 128; 0; 0; 64].
Example C50_grey : forall m,
  decoded ex_gz m ex_grey (repeat 7 24) = Some ([0; 0; 128; 63; 0; 0; 128; 63; 0; 0; 128; 63] ++ repeat 7 12).
Proof. intros []; vm_compute; reflexivity. Qed.

(** Tile-compressed images: the same layout, for the pixels tile after tile. *)
Theorem C50_tiles : forall gz m fuel d dec t z sc ints,
  octets d -> decoder_new m fuel (mk_reader d 0) = Some (Ok dec) -> de_kind dec = KTiles t z ->
  scaling (h_values (de_hdu dec)) sc ->
  tiled d t (h_offset (de_hdu dec)) z -> tiles_hold gz m d t (h_offset (de_hdu dec)) z ints ->
  whole_pixels (z_bitpix z) -> ~ (z_bitpix z = BU8 /\ z_cmp z = ZGzip2) ->
  exists fuel0, forall fuel2 buf, (fuel0 <= fuel2)%nat ->
    exists after, read_image gz m fuel2 dec buf = Some (Ok after) /\
      laid_out (depth (z_bitpix z)) (channels (z_bitpix z) (de_rgb dec)) (place (de_rgb dec))
        (map (tile_sample (z_bitpix z) sc) (flat_map (fun row => map (int_pixel (z_bitpix z)) (ints row)) (upto (bt_naxis2 t))))
        buf after.
Proof. exact tiles_decoded. Qed.
Print Assumptions C50_tiles.

(** ... and for float images, without dithering. *)
Theorem C50_float_tiles : forall gz m fuel d dec t z sc ints scale zero blank,
  octets d -> decoder_new m fuel (mk_reader d 0) = Some (Ok dec) -> de_kind dec = KTiles t z ->
  scaling (h_values (de_hdu dec)) sc ->
  tiled d t (h_offset (de_hdu dec)) z -> tiles_hold gz m d t (h_offset (de_hdu dec)) z ints ->
  real_pixels (z_bitpix z) -> quantised d t (h_offset (de_hdu dec)) (h_values (de_hdu dec)) scale zero blank ->
  exists fuel0, forall fuel2 buf, (fuel0 <= fuel2)%nat ->
    exists after, read_image gz m fuel2 dec buf = Some (Ok after) /\
      laid_out (depth (z_bitpix z)) (channels (z_bitpix z) (de_rgb dec)) (place (de_rgb dec))
        (map (tile_sample (z_bitpix z) sc)
             (flat_map (fun row => map (float_pixel ZNoDither (scale row) (zero row) (blank row) S754_nan) (ints row)) (upto (bt_naxis2 t))))
        buf after.
Proof. exact float_tiles_decoded. Qed.
Print Assumptions C50_float_tiles.

Example C50_tiles_case : forall m, exists dec, decoder_new m 9 (mk_reader (ex_shuffled "16") 0) = Some (Ok dec) /\
  match de_kind dec with
  | KTiles t z => tiledb (ex_shuffled "16") t (h_offset (de_hdu dec)) z && gzip_tilesb ex_gz (ex_shuffled "16") t (h_offset (de_hdu dec)) z ex_ints = true /\
      z_bitpix z = BI16
  | KImage _ => False
  end /\ scale_of (h_values (de_hdu dec)) = Ok default_scale /\
  decoded ex_gz m (ex_shuffled "16") (repeat 0 8) = Some [1; 0; 0; 0; 112; 17; 3; 0].
Proof. intro m. apply ex_decoder. destruct m; vm_compute; repeat split. Qed.
Example C50_float_tiles_case : forall m, exists dec, decoder_new m 9 (mk_reader (ex_floats "NO_DITHER" ex_ints) 0) = Some (Ok dec) /\
  match de_kind dec with
  | KTiles t z => tiledb (ex_floats "NO_DITHER" ex_ints) t (h_offset (de_hdu dec)) z && gzip_tilesb ex_gz (ex_floats "NO_DITHER" ex_ints) t (h_offset (de_hdu dec)) z ex_ints = true /\
      z_bitpix z = BF32 /\ quantisedb (ex_floats "NO_DITHER" ex_ints) t (h_offset (de_hdu dec)) (h_values (de_hdu dec)) ex_scale ex_zero (fun _ => Some 3) = true
  | KImage _ => False
  end /\ scale_of (h_values (de_hdu dec)) = Ok default_scale /\
  decoded ex_gz m (ex_floats "NO_DITHER" ex_ints) (repeat 1 48)
  = Some (flat_map (fun x => le_bytes 4 x ++ le_bytes 4 x ++ le_bytes 4 x) [1056964608; 3212836864; 1208530960; 2143289344]).
Proof. intro m. apply ex_decoder. destruct m; vm_compute; repeat split. Qed.

(** Tiles that are not whole rows: the pixels come tile by tile, and an image of 4 x 2 pixels in tiles of
    2 x 2 is scrambled.  The tiles hold pixels 1 2 5 6 and 3 4 7 8 of the image 1 2 3 4 / 5 6 7 8. *)
Definition ex_square_ints (row : Z) : list Z := if row =? 0 then [1; 2; 5; 6] else [3; 4; 7; 8].
Definition ex_square : list Z :=
  ex_tiled_file "8" "GZIP_1"
    ["NAXIS1  = 8"; "NAXIS2  = 2"; "TFIELDS = 1"; "TFORM1  = '1PB(17)'"; "TTYPE1  = 'COMPRESSED_DATA'";
     "ZNAXIS  = 2"; "ZNAXIS1 = 4"; "ZNAXIS2 = 2"; "ZTILE1  = 2"; "ZTILE2  = 2"]
    [0; 0; 0; 17; 0; 0; 0; 0;   0; 0; 0; 17; 0; 0; 0; 17]
    ([16] ++ flat_map be4 (ex_square_ints 0) ++ [16] ++ flat_map be4 (ex_square_ints 1) ++ repeat 0 6).
Theorem C50_tile_order_refuted : forall m, exists dec, decoder_new m 9 (mk_reader ex_square 0) = Some (Ok dec) /\
  match de_kind dec with
  | KTiles t z => tiledb ex_square t (h_offset (de_hdu dec)) z && gzip_tilesb ex_gz ex_square t (h_offset (de_hdu dec)) z ex_square_ints = true /\
      z_bitpix z = BU8 /\ z_naxisn z = [4; 2] /\ z_tilen z = [2; 2]
  | KImage _ => False
  end /\ de_width dec = 4 /\ de_height dec = 2 /\ ImageInt.total_bytes dec = 8 /\
  decoded ex_gz m ex_square (repeat 0 8) = Some [1; 2; 5; 6; 3; 4; 7; 8].
Proof. intro m. apply ex_decoder. destruct m; vm_compute; repeat split. Qed.
Print Assumptions C50_tile_order_refuted.

(** ** C51: which HDU is shown *)

(** The first suitable HDU decides: its first two axes are reported if it can be shown, and opening fails
    otherwise. *)
Theorem C51_first : forall m d l h f fuel,
  octets d -> run m (List.length l + 1) (opened d) = (map IOk l ++ [IOk h], f) ->
  Forall (fun x => ~ suitable m x) l -> suitable m h -> (List.length l < fuel)%nat ->
  opens_with (decoder_new m fuel (mk_reader d 0)) h f.
Proof. exact opens_first. Qed.
Print Assumptions C51_first.

(** With none before the end of the iteration opening fails, with the error of the iteration if it had one. *)
Theorem C51_none : forall m d l x f fuel,
  octets d -> run m (List.length l + 1) (opened d) = (map IOk l ++ [x], f) ->
  Forall (fun x => ~ suitable m x) l -> (forall h, x <> IOk h) -> (List.length l < fuel)%nat ->
  decoder_new m fuel (mk_reader d 0) = match x with IErr e => Some (Err e) | IPanic => Some Panic | _ => Some (Err EDynamic) end.
Proof. exact opens_none. Qed.
Print Assumptions C51_none.

Definition picked (m : mode) (d : list Z) : option (res (Z * Z * bool * Z)) :=
  match decoder_new m 9 (mk_reader d 0) with
  | Some (Ok dec) => Some (Ok (de_width dec, de_height dec, de_rgb dec, h_offset (de_hdu dec)))
  | Some (Err e) => Some (Err e)
  | Some Panic => Some Panic
  | None => None
  end.
(** The primary HDU has no data, the ASCII table is passed over; one axis, and four planes, are refused. *)
Definition ex_nothing : hkind * source := (HPrimary, ex_source ["SIMPLE  = T"; "BITPIX  = 8"; "NAXIS   = 0"] []).
Definition ex_line : list Z := file_bytes [ex_nothing; (HImage, ex_source ["XTENSION= 'IMAGE   '"; "BITPIX  = 8"; "NAXIS   = 1"; "NAXIS1  = 2"] [1; 2])].
Definition ex_four : list Z :=
  file_bytes [ex_nothing; (HImage, ex_source ["XTENSION= 'IMAGE   '"; "BITPIX  = 8"; "NAXIS   = 3"; "NAXIS1  = 1"; "NAXIS2  = 1"; "NAXIS3  = 4"] [1; 2; 3; 4])].
Example C51_ex : forall m,
  picked m ex_planes = Some (Ok (2, 1, true, 5760)) /\ picked m ex_square = Some (Ok (4, 2, false, 5760)) /\
  picked m (file_bytes [ex_nothing; (HAsciiTable, ex_ascii); (HImage, ex_image)]) = Some (Ok (2, 3, false, 11520)) /\
  picked m ex_line = Some (Err EDynamic) /\ picked m ex_four = Some (Err EDynamic) /\
  picked m (file_bytes [ex_nothing; (HAsciiTable, ex_ascii)]) = Some (Err EDynamic).
Proof. intros []; vm_compute; repeat split. Qed.
Example C51_ex_hypotheses : exists h0 h f,
  run Checked 2 (opened ex_planes) = ([IOk h0; IOk h], f) /\ ~ suitable Checked h0 /\ suitable Checked h /\
  pictures h [2; 1; 3] BI16 /\ shows [2; 1; 3] 2 1 true.
Proof.
  eexists. eexists. eexists. split; [vm_compute; reflexivity|]. split; [|split; [|split]].
  - intros [(_ & n & S & NZ)|(K & _)]; [|discriminate]. vm_compute in S. injection S as <-. apply NZ. reflexivity.
  - left. split; [right; reflexivity|]. exists 12. split; [vm_compute; reflexivity|discriminate].
  - left. eexists. split; [reflexivity|]. split; reflexivity.
  - repeat split. right. right. split; reflexivity.
Qed.

(** The search ends when the announced sizes fit the address range. *)
Theorem C51_ends : forall m d fuel,
  octets d -> len d < 2 ^ 63 ->
  (forall n l f, run m n (opened d) = (map IOk l, f) -> sizes_fit m (map IOk l)) ->
  len d < 2880 * Z.of_nat fuel -> decoder_new m fuel (mk_reader d 0) <> None.
Proof. exact decoder_ends. Qed.
Print Assumptions C51_ends.

(** ** C54: the end of iteration *)

(** With sizes that fit the address range, a file of [n] bytes has at most [n / 2880] HDUs, whatever the
    caller reads in between. *)
Theorem C54_ends : forall m d l f,
  octets d -> len d < 2 ^ 63 -> yields m (opened d) (map IOk l) f -> sizes_fit m (map IOk l) ->
  2880 * len l <= len d.
Proof. exact iteration_ends. Qed.
Print Assumptions C54_ends.

Example C54_ex : exists l f,
  yields Checked (opened (file_bytes ex_file)) (map IOk l) f /\ sizes_fit Checked (map IOk l) /\ len l = 3.
Proof.
  destruct (run Checked 3 (opened (file_bytes ex_file))) as (items, f) eqn:E.
  assert (F: fst (run Checked 3 (opened (file_bytes ex_file))) = items) by (rewrite E; reflexivity).
  exists (map (fun i => match i with IOk h => h | _ => mk_hdu HPrimary [] [] (XtImage (mk_image BU8 [])) 0 end) items), f.
  assert (M: map IOk (map (fun i => match i with IOk h => h | _ => mk_hdu HPrimary [] [] (XtImage (mk_image BU8 [])) 0 end) items) = items)
    by (rewrite <- F; vm_compute; reflexivity).
  rewrite M. split; [|split; [apply sizes_fitb_ok; rewrite <- F; vm_compute; reflexivity|rewrite <- F; vm_compute; reflexivity]].
  pose proof (run_yields Checked 3 (opened (file_bytes ex_file))) as Y. rewrite E in Y. apply Y. cbn [fst]. rewrite <- F. vm_compute. reflexivity.
Qed.

(** Sizes near 2^64 move backwards: 44 table headers of 704 bytes that announce 2^64 - 2176 bytes each lead
    to the next one, and the last, with 2^64 - 33856 bytes, back to the first.  The iteration over this file
    of 36736 bytes never ends, and neither does the search for an image. *)
Definition ex_ring_header (rows width : string) : list Z :=
  List.concat (map (fun s => padded 80 (chars s))
    ["XTENSION= 'TABLE   '"; "BITPIX  = 8"; "NAXIS   = 2"; "NAXIS1  = " ++ width; "NAXIS2  = " ++ rows;
     "PCOUNT  = 0"; "GCOUNT  = 1"; "TFIELDS = 0"])%string ++ padded 64 (chars "END").
Definition ex_ring : list Z :=
  file_bytes [ex_nothing] ++
  List.concat (repeat (ex_ring_header "2305843009213693680" "8") 44) ++
  ex_ring_header "288230376151711215" "64" ++ blanks 2176.
Lemma ex_ring_turns m : forall n, Forall (passed_over m) (fst (run m n (opened ex_ring))).
Proof.
  apply (turnsb_ok m 2 45); [apply Nat.lt_0_succ|]. destruct m; vm_compute; reflexivity.
Qed.

Theorem C54_endless_refuted : forall m, octets ex_ring /\ len ex_ring = 36736 /\
  forall n, exists l f, run m n (opened ex_ring) = (map IOk l, f) /\ List.length l = n.
Proof.
  intro m. split; [apply octetsb_ok; vm_compute; reflexivity|]. split; [vm_compute; reflexivity|]. intro n.
  destruct (passed_over_list m _ (ex_ring_turns m n)) as (hs & E & _). exists hs, (snd (run m n (opened ex_ring))). split.
  - rewrite <- E. destruct (run m n (opened ex_ring)); reflexivity.
  - rewrite <- (map_length IOk), <- E. apply AsyncProofs4.run_length.
Qed.
Print Assumptions C54_endless_refuted.

Theorem C51_endless_refuted : forall m fuel, decoder_new m fuel (mk_reader ex_ring 0) = None.
Proof. intros m. exact (search_endless m ex_ring (ex_ring_turns m)). Qed.
Print Assumptions C51_endless_refuted.
