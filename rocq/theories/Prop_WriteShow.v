(** Properties of written pictures shown by the [image] crate (C68): an image written by the standard, plain
    or tile-compressed, behind any HDUs without a picture, is shown with the pixels that were written, scaled
    by BZERO and BSCALE.  [decoder_new] is the model of [FitsDecoder::new], [read_image] that of
    [ImageDecoder::read_image]; [SpecWriteShow] holds the writing side. *)

From Coq Require Import String List Permutation.
From Verif Require Import Base Utf8 Text Card Reader Header Xtension Bytes Fits ImageIt BinTable Rice Float Tile ImageInt.
From Verif Require Import SpecUtf8 SpecCard SpecHeader SpecXt SpecFits SpecImage SpecBin SpecRice SpecTile SpecWrite SpecImageInt SpecWriteTable SpecWriteTile SpecWriteShow.
From Verif Require Import WriteShowProofs WriteShowProofs2.
Local Open Scope string_scope.
Local Open Scope list_scope.
Local Open Scope Z_scope.

(** ** Plain images *)

(** All of these files are accepted. *)
Theorem C68_accepted : forall gz m,
  (forall k b axes pixels zero scale s, scaled_written k b axes pixels zero scale s -> accepted m (k, s)) /\
  (forall p zero scale s, scaled_tiles gz m p zero scale s -> accepted m (HBinTable, s)) /\
  (forall p s, unscaled_floats gz m p s -> accepted m (HBinTable, s)).
Proof.
  intros gz m. split; [exact (accepted_scaled m)|]. split; [exact (accepted_scaled_tiles gz m)|exact (accepted_unscaled gz m)].
Qed.
Print Assumptions C68_accepted.

(** Pixels of 8 and 16 bits, grey or three planes: the sample is [pixel * BSCALE + BZERO], exactly, limited
    to the unsigned type, least significant byte first. *)
Theorem C68_small : forall gz m d pre k s post b axes pixels zero scale w ht rgb fuel,
  octets d -> file_kinds (pre ++ (k, s) :: post) -> Forall (accepted m) pre -> Forall no_picture pre ->
  scaled_written k b axes pixels zero scale s -> pixels <> [] -> shows axes w ht rgb -> b = BU8 \/ b = BI16 ->
  Z.abs (match zero with Some z => z | None => 0 end) < 2 ^ 53 -> Z.abs (match scale with Some a => a | None => 1 end) < 2 ^ 53 ->
  Forall (fun v => Z.abs (physical zero scale v) < 2 ^ 53) pixels ->
  d = file_bytes (pre ++ (k, s) :: post) -> len d < 2 ^ 63 -> (List.length pre < fuel)%nat ->
  exists dec, decoder_new m fuel (mk_reader d 0) = Some (Ok dec) /\
    de_width dec = w /\ de_height dec = ht /\ ImageInt.total_bytes dec = w * ht * (depth b * channels b rgb) /\
    forall fuel2 buf, len buf = ImageInt.total_bytes dec ->
      read_image gz m fuel2 dec buf = Some (Ok (picture_buffer 0 (channels b rgb) rgb (w * ht)
        (fun v => sample_bytes (depth b) (limited 0 (256 ^ depth b - 1) (physical zero scale v))) pixels)).
Proof. exact shown_small. Qed.
Print Assumptions C68_small.

(** Unsigned numbers, written by the convention of the standard (16 bits, BZERO = 32768) or as they are
    (8 bits): the buffer holds the numbers written. *)
Theorem C68_unsigned : forall gz m d pre k s post us axes w ht fuel,
  octets d -> file_kinds (pre ++ (k, s) :: post) -> Forall (accepted m) pre -> Forall no_picture pre ->
  us <> [] -> shows axes w ht false ->
  d = file_bytes (pre ++ (k, s) :: post) -> len d < 2 ^ 63 -> (List.length pre < fuel)%nat ->
  (Forall (fun u => 0 <= u < 65536) us -> scaled_written k BI16 axes (map (fun u => u - 32768) us) (Some 32768) (Some 1) s ->
   exists dec, decoder_new m fuel (mk_reader d 0) = Some (Ok dec) /\ de_width dec = w /\ de_height dec = ht /\
     forall fuel2 buf, len buf = ImageInt.total_bytes dec ->
       read_image gz m fuel2 dec buf = Some (Ok (flat_map (sample_bytes 2) us))) /\
  (Forall (fun u => 0 <= u < 256) us -> scaled_written k BU8 axes us None None s ->
   exists dec, decoder_new m fuel (mk_reader d 0) = Some (Ok dec) /\ de_width dec = w /\ de_height dec = ht /\
     forall fuel2 buf, len buf = ImageInt.total_bytes dec -> read_image gz m fuel2 dec buf = Some (Ok us)).
Proof. exact shown_unsigned. Qed.
Print Assumptions C68_unsigned.

(** Floats of 32 bits: the bit patterns written; BZERO and BSCALE are not applied. *)
Theorem C68_floats : forall gz m d pre k s post axes pixels zero scale w ht rgb fuel,
  octets d -> file_kinds (pre ++ (k, s) :: post) -> Forall (accepted m) pre -> Forall no_picture pre ->
  scaled_written k BF32 axes pixels zero scale s -> pixels <> [] -> shows axes w ht rgb ->
  d = file_bytes (pre ++ (k, s) :: post) -> len d < 2 ^ 63 -> (List.length pre < fuel)%nat ->
  exists dec, decoder_new m fuel (mk_reader d 0) = Some (Ok dec) /\
    de_width dec = w /\ de_height dec = ht /\ ImageInt.total_bytes dec = w * ht * 12 /\
    forall fuel2 buf, len buf = ImageInt.total_bytes dec ->
      read_image gz m fuel2 dec buf = Some (Ok (picture_buffer 0 3 rgb (w * ht) (sample_bytes 4) pixels)).
Proof. exact shown_floats. Qed.
Print Assumptions C68_floats.

(** The other types: the samples of C50 and C56, of the pixels in their places. *)
Theorem C68_shown : forall gz m d pre k s post b axes pixels zero scale w ht rgb fuel,
  octets d -> file_kinds (pre ++ (k, s) :: post) -> Forall (accepted m) pre -> Forall no_picture pre ->
  scaled_written k b axes pixels zero scale s -> pixels <> [] -> shows axes w ht rgb ->
  d = file_bytes (pre ++ (k, s) :: post) -> len d < 2 ^ 63 -> (List.length pre < fuel)%nat ->
  exists dec sc, decoder_new m fuel (mk_reader d 0) = Some (Ok dec) /\
    de_width dec = w /\ de_height dec = ht /\ ImageInt.total_bytes dec = w * ht * (depth b * channels b rgb) /\
    (exists vs, scaling vs sc /\
       keyword_integer vs (chars "BZERO") 0 (match zero with Some z => z | None => 0 end) /\
       keyword_integer vs (chars "BSCALE") 1 (match scale with Some a => a | None => 1 end)) /\
    forall fuel2 buf, len buf = ImageInt.total_bytes dec ->
      read_image gz m fuel2 dec buf = Some (Ok (picture_buffer 0 (channels b rgb) rgb (w * ht) (image_sample b sc) pixels)).
Proof. exact shown_image. Qed.
Print Assumptions C68_shown.

(** A writer of such files, with any other images behind. *)
Theorem C68_files_shown : forall gz m b axes pixels zero scale ps w ht rgb,
  picture_ok (b, axes, pixels) -> number_ok zero -> number_ok scale -> Forall picture_ok ps ->
  pixels <> [] -> shows axes w ht rgb -> b = BU8 \/ b = BI16 ->
  Z.abs (match zero with Some z => z | None => 0 end) < 2 ^ 53 -> Z.abs (match scale with Some a => a | None => 1 end) < 2 ^ 53 ->
  Forall (fun v => Z.abs (physical zero scale v) < 2 ^ 53) pixels ->
  let d := file_bytes (shown_file (b, axes, pixels) zero scale ps) in
  len d < 2 ^ 63 ->
  exists dec, decoder_new m 1 (mk_reader d 0) = Some (Ok dec) /\
    de_width dec = w /\ de_height dec = ht /\ ImageInt.total_bytes dec = w * ht * (depth b * channels b rgb) /\
    forall fuel2 buf, len buf = ImageInt.total_bytes dec ->
      read_image gz m fuel2 dec buf = Some (Ok (picture_buffer 0 (channels b rgb) rgb (w * ht)
        (fun v => sample_bytes (depth b) (limited 0 (256 ^ depth b - 1) (physical zero scale v))) pixels)).
Proof. exact file_shown. Qed.
Print Assumptions C68_files_shown.

(** An image of 2 x 1 numbers 40000 and 7, of 16 bits, behind which another image follows; three planes
    of one pixel, scaled by -2 and 100: 5 * -2 + 100, 60 * -2 + 100 limited to 0, -200 * -2 + 100. *)
Definition shown_by (m : mode) (d : list Z) (buf : list Z) : option (Z * Z * res (list Z)) :=
  match decoder_new m 1 (mk_reader d 0) with
  | Some (Ok dec) =>
    match read_image (fun _ _ => (None, [], 0)) m 0 dec buf with Some r => Some (de_width dec, de_height dec, r) | None => None end
  | _ => None
  end.
Example C68_ex :
  picture_ok (BI16, [2; 1], [40000 - 32768; 7 - 32768]) /\ picture_ok (BI16, [1; 1; 3], [5; 60; -200]) /\ picture_ok (BU8, [1], [9]) /\
  shows [2; 1] 2 1 false /\ shows [1; 1; 3] 1 1 true /\
  (let d := file_bytes (shown_file (BI16, [2; 1], [40000 - 32768; 7 - 32768]) (Some 32768) (Some 1) [(BU8, [1], [9])]) in
   len d = 4 * 2880 /\ shown_by Checked d (repeat 1 4) = Some (2, 1, Ok [64; 156; 7; 0])) /\
  (let d := file_bytes (shown_file (BI16, [1; 1; 3], [5; 60; -200]) (Some 100) (Some (-2)) []) in
   shown_by Checked d (repeat 1 6) = Some (1, 1, Ok [90; 0; 0; 0; 244; 1])).
Proof.
  assert (P : forall b axes pixels, len axes <= 3 -> Forall (fun a => 0 <= a <= 3) axes -> len pixels = product axes -> (len axes =? 0) = false ->
    Forall (in_range b) pixels -> picture_ok (b, axes, pixels)).
  { intros b axes pixels L A E N R. split; [lia|]. split; [eapply Forall_impl; [|exact A]; cbv beta; lia|]. split; [|rewrite N; auto].
    intros l r EL. assert (F : Forall (fun a => 0 <= a <= 3) l) by (rewrite EL in A; now apply Forall_app in A).
    assert (LL : len l <= 3) by (rewrite EL, len_app in L; pose proof (len_nonneg r); lia). clear -F LL.
    assert (B : forall n, len l <= Z.of_nat n -> 0 <= product l <= 3 ^ Z.of_nat n).
    { clear LL. induction F as [|a l A F IH]; intros n L; [cbn [product]; lia|]. rewrite len_cons in L. pose proof (len_nonneg l).
      destruct n as [|n]; [lia|]. specialize (IH n ltac:(lia)). cbn [product]. rewrite Nat2Z.inj_succ, Z.pow_succ_r by lia. nia. }
    specialize (B 3%nat ltac:(lia)). cbn in B. lia. }
  split; [apply P; repeat constructor; vm_compute; try discriminate; reflexivity|].
  split; [apply P; repeat constructor; vm_compute; try discriminate; reflexivity|].
  split; [apply P; repeat constructor; vm_compute; try discriminate; reflexivity|].
  split; [split; [lia|]; split; [lia|]; auto|]. split; [split; [lia|]; split; [lia|]; auto|].
  split; vm_compute; auto.
Qed.

(** ** Tile-compressed images *)

(** The same for tile-compressed images; the pixels come tile after tile ... *)
Theorem C68_tiles_shown : forall gz m d pre s post p zero scale w ht rgb fuel,
  octets d -> file_kinds (pre ++ (HBinTable, s) :: post) -> Forall (accepted m) pre -> Forall no_picture pre ->
  scaled_tiles gz m p zero scale s -> shows (zp_dims p) w ht rgb ->
  d = file_bytes (pre ++ (HBinTable, s) :: post) -> len d < 2 ^ 63 -> (List.length pre < fuel)%nat ->
  exists dec sc fuel0, decoder_new m fuel (mk_reader d 0) = Some (Ok dec) /\
    de_width dec = w /\ de_height dec = ht /\ ImageInt.total_bytes dec = w * ht * (depth (zp_bitpix p) * channels (zp_bitpix p) rgb) /\
    (exists vs, scaling vs sc /\
       keyword_integer vs (chars "BZERO") 0 (match zero with Some z => z | None => 0 end) /\
       keyword_integer vs (chars "BSCALE") 1 (match scale with Some a => a | None => 1 end)) /\
    forall fuel2 buf, (fuel0 <= fuel2)%nat -> len buf = ImageInt.total_bytes dec ->
      read_image gz m fuel2 dec buf
      = Some (Ok (picture_buffer 0 (channels (zp_bitpix p) rgb) rgb (w * ht) (image_sample (zp_bitpix p) sc) (tilewise p))).
Proof. exact zshown_image. Qed.
Print Assumptions C68_tiles_shown.

(** ... which is their order in the image where tiles are rows, or the like; other tilings are scrambled (C50). *)
Theorem C68_tiles_small : forall gz m d pre s post p zero scale w ht rgb fuel,
  octets d -> file_kinds (pre ++ (HBinTable, s) :: post) -> Forall (accepted m) pre -> Forall no_picture pre ->
  scaled_tiles gz m p zero scale s -> shows (zp_dims p) w ht rgb -> slabs (zp_dims p) (zp_tiles p) ->
  zp_bitpix p = BU8 \/ zp_bitpix p = BI16 ->
  Z.abs (match zero with Some z => z | None => 0 end) < 2 ^ 53 -> Z.abs (match scale with Some a => a | None => 1 end) < 2 ^ 53 ->
  Forall (fun v => Z.abs (physical zero scale v) < 2 ^ 53) (zp_pixels p) ->
  d = file_bytes (pre ++ (HBinTable, s) :: post) -> len d < 2 ^ 63 -> (List.length pre < fuel)%nat ->
  exists dec fuel0, decoder_new m fuel (mk_reader d 0) = Some (Ok dec) /\
    de_width dec = w /\ de_height dec = ht /\ ImageInt.total_bytes dec = w * ht * (depth (zp_bitpix p) * channels (zp_bitpix p) rgb) /\
    forall fuel2 buf, (fuel0 <= fuel2)%nat -> len buf = ImageInt.total_bytes dec ->
      read_image gz m fuel2 dec buf = Some (Ok (picture_buffer 0 (channels (zp_bitpix p) rgb) rgb (w * ht)
        (fun v => sample_bytes (depth (zp_bitpix p)) (limited 0 (256 ^ depth (zp_bitpix p) - 1) (physical zero scale v))) (zp_pixels p))).
Proof. exact zshown_small. Qed.
Print Assumptions C68_tiles_small.

(** Float images: the f32 numbers of C63, tile after tile (for rows in order by C63_rows_in_order). *)
Theorem C68_tiles_floats : forall gz m d pre s post p w ht rgb fuel,
  octets d -> file_kinds (pre ++ (HBinTable, s) :: post) -> Forall (accepted m) pre -> Forall no_picture pre ->
  unscaled_floats gz m p s -> shows (zp_dims (fp_ints p)) w ht rgb ->
  d = file_bytes (pre ++ (HBinTable, s) :: post) -> len d < 2 ^ 63 -> (List.length pre < fuel)%nat ->
  exists dec fuel0, decoder_new m fuel (mk_reader d 0) = Some (Ok dec) /\
    de_width dec = w /\ de_height dec = ht /\ ImageInt.total_bytes dec = w * ht * 12 /\
    exists bits, Forall2 (fun n x => 0 <= n < 2 ^ 32 /\ f32_of_bits n = x) bits (floats_tilewise p) /\
    forall fuel2 buf, (fuel0 <= fuel2)%nat -> len buf = ImageInt.total_bytes dec ->
      read_image gz m fuel2 dec buf = Some (Ok (picture_buffer 0 3 rgb (w * ht) (sample_bytes 4) bits)).
Proof. exact zshown_floats. Qed.
Print Assumptions C68_tiles_floats.

(** A writer: unsigned 16-bit numbers, compressed with RICE, behind a primary HDU without data. *)
Theorem C68_tiles_unsigned : forall gz m p bs blocks us w ht,
  zpicture_ok p bs blocks -> m = Wrapping \/ gently_coded p blocks -> zp_bitpix p = BI16 ->
  zp_pixels p = map (fun u => u - 32768) us -> Forall (fun u => 0 <= u < 65536) us ->
  shows (zp_dims p) w ht false -> slabs (zp_dims p) (zp_tiles p) ->
  let d := file_bytes [empty_primary; (HBinTable, write_scaled_tiles p (Some 32768) (Some 1) blocks)] in
  len d < 2 ^ 63 ->
  exists dec fuel0, decoder_new m 2 (mk_reader d 0) = Some (Ok dec) /\ de_width dec = w /\ de_height dec = ht /\
    forall fuel2 buf, (fuel0 <= fuel2)%nat -> len buf = ImageInt.total_bytes dec ->
      read_image gz m fuel2 dec buf = Some (Ok (flat_map (sample_bytes 2) us)).
Proof. exact zshown_unsigned. Qed.
Print Assumptions C68_tiles_unsigned.

(** The numbers 32868, 32871, 32871, 32871 / 32773, 32763, 32468, 64768, in tiles of a row. *)
Definition ex_us : list Z := [32868; 32871; 32871; 32871; 32773; 32763; 32468; 64768].
Definition ex_tiles : zpicture :=
  mk_zpicture (ZRice 2 4) BI16 [(4, None); (2, None)] [(chars "BLOCKSIZE", 2); (chars "BYTEPIX", 4)] (map (fun u => u - 32768) ex_us).
Definition ex_tile_coding (k : Z) : list (coding * list Z) :=
  if k =? 0 then [(SplitAt 1, [100; 103]); (AllZero, [103; 103])] else [(SplitAt 3, [5; -5]); (Raw, [-300; 32000])].
Example C68_tiles_ex_ok : zpicture_ok ex_tiles 2 ex_tile_coding /\ gently_coded ex_tiles ex_tile_coding /\
  slabs (zp_dims ex_tiles) (zp_tiles ex_tiles) /\ shows (zp_dims ex_tiles) 4 2 false /\ Forall (fun u => 0 <= u < 65536) ex_us.
Proof.
  assert (K : forall k, 0 <= k < product (grid (zp_dims ex_tiles) (zp_tiles ex_tiles)) -> k = 0 \/ k = 1).
  { change (product (grid (zp_dims ex_tiles) (zp_tiles ex_tiles))) with 2. lia. }
  split; [|split; [|split; [|split]]].
  - split; [right; left; reflexivity|]. split; [repeat constructor; vm_compute; try discriminate; reflexivity|].
    unfold codings_ok. split; [vm_compute; discriminate|]. split; [repeat constructor|]. split; [reflexivity|]. split; [reflexivity|]. split; [lia|].
    split; [change (whole_tiles [4; 2] [4; 1]); repeat constructor; cbn; lia|]. split; [vm_compute; discriminate|]. split; [reflexivity|].
    split; [|split; vm_compute; reflexivity].
    intros k R. destruct (K k R) as [->| ->]; (split; [reflexivity|]); cbn; repeat split; try lia; repeat constructor; vm_compute; discriminate.
  - intros k R. destruct (K k R) as [->| ->]; (split; [cbn; lia|]); cbn [short_runs ex_tile_coding Z.eqb Pos.eqb];
      (split; [repeat (apply Forall_cons || apply Forall_nil); vm_compute; discriminate|repeat split]).
  - change (slabs [4; 2] [4; 1]). apply slabs_full; [lia|]. apply (slabs_part 2 1 []); [lia|lia|reflexivity].
  - split; [lia|]. split; [lia|]. left. split; reflexivity.
  - unfold ex_us. repeat (apply Forall_cons || apply Forall_nil); lia.
Qed.
Example C68_tiles_ex :
  let d := file_bytes [empty_primary; (HBinTable, write_scaled_tiles ex_tiles (Some 32768) (Some 1) ex_tile_coding)] in
  match decoder_new Checked 2 (mk_reader d 0) with
  | Some (Ok dec) => read_image (fun _ _ => (None, [], 0)) Checked 20 dec (repeat 1 16) = Some (Ok (flat_map (sample_bytes 2) ex_us)) /\
      firstn 4 (flat_map (sample_bytes 2) ex_us) = [100; 128; 103; 128]
  | _ => False
  end.
Proof. vm_compute. auto. Qed.
