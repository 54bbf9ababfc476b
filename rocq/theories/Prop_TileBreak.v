(** Tile-compressed images that are damaged, cut off, or not divided by their tiles (C69).  The intact tiles are
    read as if all were well; a tile that cannot be had ends the image. *)

From Coq Require Import String List.
From Verif Require Import Base Utf8 Text Card Reader Header Xtension Bytes Fits ImageIt BinTable Rice Float Tile.
From Verif Require Import SpecUtf8 SpecCard SpecHeader SpecXt SpecFits SpecImage SpecBin SpecRice SpecTile SpecTileBreak.
From Verif Require Import HeaderProofs FitsProofs4 BinProofs3 RiceProofs6 TileProofs4 TileProofs5 TileProofs6 TileProofs7 Prop_Fits Prop_Bin Prop_Rice Prop_Tile.
Local Open Scope string_scope.
Local Open Scope list_scope.
Local Open Scope Z_scope.

(** ** C69: intact tiles are read whatever follows *)

(** The first [k] tiles are intact: their pixels come first, whatever the bytes of the other tiles, and the reader
    is back in the table after each of them. *)
Theorem C69_intact_tiles : forall gz m d f h f' t z pix ints k,
  octets d -> rd_data (f_reader f) = d -> 0 <= rd_pos (f_reader f) -> next m f = (IOk h, f') ->
  h_xt h = XtBin t -> bt_zimage t = Some z -> tiled d t (h_offset h) z ->
  whole_image z pix \/ scaled_image d t (h_offset h) (h_values h) z pix ->
  0 <= k <= bt_naxis2 t -> first_tiles_hold gz m d t (h_offset h) z ints k ->
  exists s fuel0, get_tiles m f' (h_values h) t = Some (Ok s) /\
    forall fuel n, (fuel0 <= fuel)%nat -> Z.of_nat n <= product (z_tilen z) * k ->
    fst (tiles_run gz m fuel s n) = map PixelOf (firstn n (flat_map (fun row => pix row (ints row)) (upto k))) /\
    tl_reader (snd (tiles_run gz m fuel s n)) = mk_reader d (h_offset h + bt_naxis1 t * tiles_begun z n).
Proof. exact prefix_read. Qed.
Print Assumptions C69_intact_tiles.

(** The next tile cannot be had: it ends the image.  No error is reported, no panic happens, in every build. *)
Theorem C69_broken_tile_ends : forall gz m d f h f' t z pix ints k,
  octets d -> rd_data (f_reader f) = d -> 0 <= rd_pos (f_reader f) -> next m f = (IOk h, f') ->
  h_xt h = XtBin t -> bt_zimage t = Some z -> tiled d t (h_offset h) z ->
  whole_image z pix \/ scaled_image d t (h_offset h) (h_values h) z pix ->
  forall bytes, 0 <= k < bt_naxis2 t -> first_tiles_hold gz m d t (h_offset h) z ints k ->
  tile_at d t (h_offset h) (z_data_idx z) k bytes -> broken_tile gz m (z_cmp z) (product (z_tilen z)) bytes ->
  exists s fuel0, get_tiles m f' (h_values h) t = Some (Ok s) /\
    forall fuel, (fuel0 <= fuel)%nat ->
    fst (tiles_run gz m fuel s (Z.to_nat (product (z_tilen z) * k + 1)))
    = map PixelOf (flat_map (fun row => pix row (ints row)) (upto k)) ++ [PixEnd].
Proof. exact broken_read. Qed.
Print Assumptions C69_broken_tile_ends.

(** The next tile is a RICE code of fewer pixels than the tile size, as at the border of an image.  Release builds:
    its pixels come next, or, at the end of the file, the image ends there. *)
Theorem C69_short_tile_release : forall gz d f h f' t z pix ints k,
  octets d -> rd_data (f_reader f) = d -> 0 <= rd_pos (f_reader f) -> next Wrapping f = (IOk h, f') ->
  h_xt h = XtBin t -> bt_zimage t = Some z -> tiled d t (h_offset h) z ->
  whole_image z pix \/ scaled_image d t (h_offset h) (h_values h) z pix ->
  forall bytes is, 0 <= k < bt_naxis2 t -> first_tiles_hold gz Wrapping d t (h_offset h) z ints k ->
  tile_at d t (h_offset h) (z_data_idx z) k bytes -> short_tile Wrapping (z_cmp z) (product (z_tilen z)) bytes is ->
  exists s fuel0, get_tiles Wrapping f' (h_values h) t = Some (Ok s) /\
    forall fuel, (fuel0 <= fuel)%nat ->
    let before := map PixelOf (flat_map (fun row => pix row (ints row)) (upto k)) in
    fst (tiles_run gz Wrapping fuel s (Z.to_nat (product (z_tilen z) * k + 1))) = before ++ [PixEnd] \/
    fst (tiles_run gz Wrapping fuel s (Z.to_nat (product (z_tilen z) * k) + length is)) = before ++ map PixelOf (pix k is).
Proof. intros. eapply short_read; eauto. Qed.
Print Assumptions C69_short_tile_release.

(** The decoder alone, for the three pixel types: a code cut off before the byte with its last bit is reported as the
    end of the input... *)
Theorem C69_rice_cut : forall m t nblock x0 blocks bytes more fuel,
  compressed t nblock x0 blocks (bytes ++ more) ->
  8 * (len bytes - pixel_bits t / 8) < len (blocks_code t x0 blocks) ->
  bytes_ok (bytes ++ more) -> Forall (pixel_ok t) (block_pixels blocks) -> len (block_pixels blocks) + nblock <= 2 ^ 31 ->
  (m = Wrapping \/ t = RI32 /\ gentle x0 (block_pixels blocks) /\ short_runs t x0 blocks) ->
  (2 * length (block_pixels blocks) + 1 <= fuel)%nat ->
  fst (fst (rice_read_exact m t nblock (len (block_pixels blocks)) (pixel_bits t / 8 * len (block_pixels blocks)) fuel bytes))
  = Some (Err EEof).
Proof. exact cut_found. Qed.
Print Assumptions C69_rice_cut.

(** ... and a code of fewer pixels than asked for gives these pixels first, whatever comes of the rest. *)
Theorem C69_rice_short : forall m t nblock nx x0 blocks bytes fuel,
  compressed t nblock x0 blocks bytes ->
  bytes_ok bytes -> Forall (pixel_ok t) (block_pixels blocks) -> len (block_pixels blocks) < nx -> nx + nblock <= 2 ^ 31 ->
  (m = Wrapping \/ t = RI32 /\ gentle x0 (block_pixels blocks) /\ short_runs t x0 blocks) ->
  (2 * length (block_pixels blocks) + 1 <= fuel)%nat ->
  exists more, snd (rice_read_exact m t nblock nx (pixel_bits t / 8 * nx) fuel bytes)
    = flat_map (pixel_bytes t) (block_pixels blocks) ++ more.
Proof. exact short_first. Qed.
Print Assumptions C69_rice_short.

(** *** Cases *)

Definition ex_two_tiles (heap : list Z) : list Z :=
  ex_tiled_file "32" "RICE_1"
    ["NAXIS1  = 8"; "NAXIS2  = 2"; "TFIELDS = 1"; "TFORM1  = '1PB(15)'"; "TTYPE1  = 'COMPRESSED_DATA'";
     "ZNAXIS  = 2"; "ZNAXIS1 = 6"; "ZNAXIS2 = 2"; "ZNAME1  = 'BLOCKSIZE'"; "ZVAL1   = 2"]
    [0; 0; 0; 15; 0; 0; 0; 0;   0; 0; 0; 15; 0; 0; 0; 20] (ex_bytes ++ repeat 9 5 ++ heap).

(** The file ends in the second tile, one byte before its end. *)
Definition ex_cut_file : list Z := firstn (5776 + 20 + 14) (ex_two_tiles (ex_bytes ++ repeat 7 5)).
Example C69_cut_case : forall m, exists h f' t z,
  found_tiles m ex_cut_file h f' t z /\ tiledb ex_cut_file t (h_offset h) z = true /\
  z_cmp z = ZRice 2 4 /\ z_tilen z = [6; 1] /\ bt_naxis2 t = 2 /\
  option_map (firstn 15) (tile_bytes ex_cut_file t (h_offset h) (z_data_idx z) 0) = Some ex_bytes /\
  tile_bytes ex_cut_file t (h_offset h) (z_data_idx z) 1 = Some (firstn 14 ex_bytes) /\
  ex_run_tiles ex_gz m f' (h_values h) t 6 = Some (map (fun v => PixelOf (PInt v)) [100; 103; 103; 103; -5; 2 ^ 30], 5768) /\
  option_map fst (ex_run_tiles ex_gz m f' (h_values h) t 7) = Some (map (fun v => PixelOf (PInt v)) [100; 103; 103; 103; -5; 2 ^ 30] ++ [PixEnd]).
Proof. ex_tiles_check. Qed.
Example C69_cut_case_hypotheses : forall m, broken_tile ex_gz m (ZRice 2 4) 6 (firstn 14 ex_bytes).
Proof.
  intro m. split; [vm_compute; discriminate|]. destruct C38_case_bytes as (B1 & B2 & B3 & B4).
  exists 100, ex_blocks, [40]. split; [reflexivity|]. split; [exact B2|]. split; [repeat constructor; vm_compute; discriminate|].
  split; [exact ex_compressed|]. split; [vm_compute; reflexivity|]. right. auto.
Qed.
Example C69_cut_case_first : forall m t o z, z_cmp z = ZRice 2 4 -> z_tilen z = [6; 1] ->
  option_map (firstn 15) (tile_bytes ex_cut_file t o (z_data_idx z) 0) = Some ex_bytes ->
  first_tiles_hold ex_gz m ex_cut_file t o z (fun _ => block_pixels ex_blocks) 1.
Proof.
  intros m t o z C T H0 row Hr. rewrite C, T. split; [reflexivity|]. destruct C38_case_bytes as (_ & B2 & B3 & B4).
  assert (row = 0) as -> by lia. destruct (tile_bytes ex_cut_file t o (z_data_idx z) 0) as [b|] eqn:E; [|discriminate].
  exists b. split; [apply tile_bytes_ok, E|].
  apply (rice_tile_ok _ _ _ _ ex_bytes _ 100 ex_blocks); [|exact ex_compressed|vm_compute; discriminate|exact B3|exact B4|exact B2].
  change (length ex_bytes) with 15%nat. cbn [option_map] in H0. congruence.
Qed.

(** The second tile has two pixels less than the first; the padding is decoded as two pixels more. *)
Definition ex_short_blocks : list (coding * list Z) := [(SplitAt 1, [100; 103]); (AllZero, [103; 103])].
Definition ex_short_file : list Z := ex_two_tiles ([0; 0; 0; 100; 20; 32; 0] ++ repeat 0 13).
Example C69_short_case : exists h f' t z,
  found_tiles Wrapping ex_short_file h f' t z /\ tiledb ex_short_file t (h_offset h) z = true /\
  z_cmp z = ZRice 2 4 /\ z_tilen z = [6; 1] /\ bt_naxis2 t = 2 /\
  option_map (firstn 15) (tile_bytes ex_short_file t (h_offset h) (z_data_idx z) 0) = Some ex_bytes /\
  option_map (firstn 7) (tile_bytes ex_short_file t (h_offset h) (z_data_idx z) 1) = Some [0; 0; 0; 100; 20; 32; 0] /\
  ex_run_tiles ex_gz Wrapping f' (h_values h) t 13
  = Some (map (fun v => PixelOf (PInt v)) ([100; 103; 103; 103; -5; 2 ^ 30] ++ [100; 103; 103; 103; 103; 103]) ++ [PixEnd], 5776).
Proof.
  apply ex_tiles; [vm_compute; reflexivity|vm_compute; reflexivity|vm_compute; discriminate|
    vm_compute; repeat (split || constructor); intros; discriminate].
Qed.
Example C69_short_case_hypotheses : short_tile Wrapping (ZRice 2 4) 6 [0; 0; 0; 100; 20; 32; 0] (block_pixels ex_short_blocks).
Proof.
  split; [vm_compute; reflexivity|]. split; [vm_compute; reflexivity|]. split; [repeat constructor; vm_compute; discriminate|].
  exists 100, ex_short_blocks. split; [reflexivity|]. split; [|left; reflexivity].
  exists [0; 0; 0; 100], [20; 32; 0], (skipn (length (blocks_code RI32 100 ex_short_blocks)) (bit_stream [20; 32; 0])).
  repeat apply conj; try reflexivity; try discriminate; repeat constructor; try reflexivity; try discriminate.
Qed.

(** A broken gzip tile: the short one of [C42_border_refuted]. *)
Example C69_gzip_case : broken_tile ex_gz Checked ZGzip1 2 ([4] ++ flat_map be4 [3] ++ repeat 0 26).
Proof. vm_compute. reflexivity. Qed.
