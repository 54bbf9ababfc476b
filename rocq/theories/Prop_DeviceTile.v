(** Tile-compressed images on devices that fail (C82).  [DeviceTile] holds the models, [SpecDeviceTile] the
    specification side.  The gzip decoder is not modelled: the theorems hold for every decoder [gd] that gives
    an error when a call on the device fails. *)

From Coq Require Import String List Lia ZifyBool.
From Verif Require Import Base Utf8 Text Card Reader Header Xtension Bytes Fits ImageIt BinTable Rice Float Tile.
From Verif Require Import Device DeviceTable DeviceTile.
From Verif Require Import SpecUtf8 SpecCard SpecHeader SpecXt SpecFits SpecImage SpecBin SpecRice SpecTile SpecTileBreak.
From Verif Require Import SpecDevice SpecDeviceTable SpecDeviceTile.
From Verif Require Import HeaderProofs FitsProofs4 BinProofs3 TileProofs6 DeviceProofs DeviceProofs2 DeviceTableProofs DeviceTileProofs2.
From Verif Require Import Prop_Fits Prop_Bin Prop_Device Prop_Rice Prop_Tile.
Local Open Scope string_scope.
Local Open Scope list_scope.
Local Open Scope Z_scope.

(** One call of [next], in any state.  Only the first pixel of a tile makes calls on the device.  When they work
    it gives what it gives on a device that always works; when one of them fails, wherever in the row, the code
    of the tile or the way there and back, it gives [None], which is also what the end of the image gives. *)
Theorem C82_next : forall gd m fuel s, exists N,
  (tl_rem s <> 0 -> N = 0%nat) /\
  (forall p s', tl_rem s = 0 -> tiles_next (gd_plain gd) m fuel s = (Some (Ok (Some p)), s') -> (1 <= N)%nat) /\
  forall fs,
    (working N fs -> dev_tiles_next gd m fuel s fs = (tiles_next (gd_plain gd) m fuel s, skipn N fs)) /\
    (forall j, (j < N)%nat -> first_fault fs j ->
       exists s', dev_tiles_next gd m fuel s fs = (Some (Ok None), s', skipn (S j) fs)).
Proof. exact tiles_next_device. Qed.
Print Assumptions C82_next.

(** A loop over the pixels of an image of a file.  [calls] are the numbers of calls on the device that its turns
    take, whatever the device does ([fs2]); turns that begin a tile take calls and the others none.  When the
    first failure falls into turn [k], the loop is given the [k] pixels before it: whole tiles, and no other. *)
Theorem C82_image : forall gd m d f fs h f' fs' t z pix ints,
  octets d -> rd_data (f_reader f) = d -> 0 <= rd_pos (f_reader f) -> dev_next m f fs = (IOk h, f', fs') ->
  h_xt h = XtBin t -> bt_zimage t = Some z -> tiled d t (h_offset h) z ->
  whole_image z pix \/ scaled_image d t (h_offset h) (h_values h) z pix ->
  tiles_hold (gd_plain gd) m d t (h_offset h) z ints ->
  exists s fuel0, get_tiles m f' (h_values h) t = Some (Ok s) /\
    let pixels := flat_map (fun row => pix row (ints row)) (upto (bt_naxis2 t)) in
    forall fuel n, (fuel0 <= fuel)%nat -> (List.length pixels <= n)%nat -> exists calls,
      (forall k, (k < List.length pixels)%nat ->
         ((1 <= nth k calls 0)%nat <-> Z.of_nat k mod product (z_tilen z) = 0)) /\
      forall fs2,
      (working (list_sum calls) fs2 -> dev_tile_pixels gd m fuel n s fs2 = pixels) /\
      (forall j k, first_fault fs2 j -> in_turn calls k j ->
         dev_tile_pixels gd m fuel n s fs2 = firstn k pixels).
Proof. exact image_device. Qed.
Print Assumptions C82_image.

(** Loops that begin anywhere, over any image: damaged ones, dithered ones, the middle of a tile. *)
Theorem C82_anywhere : forall gd m fuel n s, exists calls,
  let pixels := pixels_of (fst (tiles_run (gd_plain gd) m fuel s n)) in
  (forall P, usize_product m 1 (tl_tile s) = Ok P -> 0 <= tl_rem s < P -> P < 2 ^ 64 ->
     forall k, (k < List.length pixels)%nat -> ((1 <= nth k calls 0)%nat <-> Z.of_nat k mod P = tl_rem s)) /\
  forall fs,
    (working (list_sum calls) fs -> dev_tile_pixels gd m fuel n s fs = pixels) /\
    (forall j k, first_fault fs j -> in_turn calls k j -> dev_tile_pixels gd m fuel n s fs = firstn k pixels).
Proof. exact pixels_device. Qed.
Print Assumptions C82_anywhere.

(** *** Cases *)

(** The decoder of the examples makes two calls, and has written nothing when one of them fails. *)
Definition ex_gd : gz_device := mk_gz_device ex_gz (fun _ _ => 2%nat) (fun _ _ _ => ([], 0)).
Definition ex_loop (m : mode) (f' : fits) (vs : vmap) (t : bintable) (fs : faults) : option (list pixel) :=
  match get_tiles m f' vs t with Some (Ok s) => Some (dev_tile_pixels ex_gd m 30 20 s fs) | _ => None end.
Definition ex_lengths (m : mode) (f' : fits) (vs : vmap) (t : bintable) (l : list nat) : list (option nat) :=
  map (fun n => option_map (@List.length pixel) (ex_loop m f' vs t (failing_at n))) l.

(** The RICE image of C42, two tiles of six pixels.  A tile takes 18 calls: two for the descriptor and one for the
    seek to the next row, two to go to the heap, one for the first pixel, eleven for the other bytes of the code,
    and one to come back. *)
Example C82_rice_case : forall m, exists h f' t z,
  found_tiles m ex_rice h f' t z /\ tiledb ex_rice t (h_offset h) z = true /\
  z_cmp z = ZRice 2 4 /\ z_tilen z = [6; 1] /\ bt_naxis2 t = 2 /\
  option_map (firstn 15) (tile_bytes ex_rice t (h_offset h) (z_data_idx z) 0) = Some ex_bytes /\
  option_map (firstn 15) (tile_bytes ex_rice t (h_offset h) (z_data_idx z) 1) = Some ex_bytes /\
  ex_lengths m f' (h_values h) t [0; 2; 17; 18; 35; 36]%nat = map Some [0; 0; 0; 6; 6; 12]%nat /\
  ex_loop m f' (h_values h) t (failing_at 25) = Some (map PInt [100; 103; 103; 103; -5; 2 ^ 30]).
Proof. ex_tiles_check. Qed.
Example C82_rice_case_hypotheses : forall m t o z,
  z_cmp z = ZRice 2 4 -> z_tilen z = [6; 1] -> bt_naxis2 t = 2 ->
  option_map (firstn 15) (tile_bytes ex_rice t o (z_data_idx z) 0) = Some ex_bytes ->
  option_map (firstn 15) (tile_bytes ex_rice t o (z_data_idx z) 1) = Some ex_bytes ->
  tiles_hold (gd_plain ex_gd) m ex_rice t o z (fun _ => block_pixels ex_blocks).
Proof. exact C42_rice_case_hypotheses. Qed.

(** The image of C42 compressed with gzip: eight calls for a tile of two pixels. *)
Example C82_gzip_case : forall m, exists h f' t z,
  found_tiles m (ex_shuffled "16") h f' t z /\
  tiledb (ex_shuffled "16") t (h_offset h) z && gzip_tilesb (gd_plain ex_gd) (ex_shuffled "16") t (h_offset h) z ex_ints = true /\
  ex_lengths m f' (h_values h) t [0; 3; 7; 8; 15; 16]%nat = map Some [0; 0; 0; 2; 2; 4]%nat /\
  ex_loop m f' (h_values h) t (failing_at 8) = Some (map PInt [1; -2]).
Proof. ex_tiles_check. Qed.

(** Going on after the [None] of a failure.  The numbers of pixels are set before the tile is read, so the iterator
    then gives a tile's worth of pixels out of its buffer without a look at the device: here the seek to the second
    tile failed, and what comes is the first tile again, then nothing.  (The second tile is [4464; 3].) *)
Fixpoint dev_turns (m : mode) (n : nat) (s : tiles) (fs : faults) : list (option (res (option pixel))) :=
  match n with
  | O => []
  | S n' => let '(x, s', fs') := dev_tiles_next ex_gd m 30 s fs in x :: dev_turns m n' s' fs'
  end.
Definition ex_turns (m : mode) (f' : fits) (vs : vmap) (t : bintable) (n : nat) (fs : faults) :=
  match get_tiles m f' vs t with Some (Ok s) => Some (dev_turns m n s fs) | _ => None end.
Theorem C82_afterwards_refuted : forall m, exists h f' t z,
  found_tiles m (ex_shuffled "16") h f' t z /\
  tiledb (ex_shuffled "16") t (h_offset h) z && gzip_tilesb (gd_plain ex_gd) (ex_shuffled "16") t (h_offset h) z ex_ints = true /\
  ex_turns m f' (h_values h) t 6 (repeat None 12 ++ [Some 0])
  = Some (map (fun x => Some (Ok x)) [Some (PInt 1); Some (PInt (-2)); None; Some (PInt 1); Some (PInt (-2)); None]).
Proof. ex_tiles_check. Qed.
Print Assumptions C82_afterwards_refuted.
