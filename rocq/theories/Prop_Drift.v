(** Damaged tile-compressed images read on after a tile that could not be loaded (C90). *)

From Coq Require Import String List.
From Verif Require Import Base Utf8 Text Card Reader Header Xtension Bytes Fits ImageIt BinTable Rice Float Tile ImageInt.
From Verif Require Import HeaderProofs FitsProofs4 TileProofs6 TileProofs8 ImageIntProofs2 ImageSafeProofs TileDriftProofs ImageDriftProofs.
From Verif Require Import SpecUtf8 SpecCard SpecHeader SpecXt SpecFits SpecPanic SpecImage SpecBin SpecBinCut SpecRice SpecTile SpecTileSafe SpecImageInt SpecDrift.
From Verif Require Import Prop_Fits Prop_Panic Prop_Bin Prop_Rice Prop_Tile Prop_TileSafe Prop_ImageInt.
Local Open Scope string_scope.
Local Open Scope list_scope.
Local Open Scope Z_scope.

(** A tile that cannot be loaded leaves the reader where the decompression stopped, and the next row is read from
    there (C43).  However often the iterator is called then, in a release build every call gives a pixel or the
    end, and never more pixels come than the tiles of the header have. *)
Theorem C90_calls : forall gz d f h f' t z,
  fills_buffer gz -> stays_in_buffer gz -> octets d -> rd_data (f_reader f) = d -> 0 <= rd_pos (f_reader f) -> next Wrapping f = (IOk h, f') ->
  h_xt h = XtBin t -> bt_zimage t = Some z -> table_laid_out d t (h_offset h) -> tile_header t z ->
  exists s fuel0, get_tiles Wrapping f' (h_values h) t = Some (Ok s) /\
    forall fuel n, (fuel0 <= fuel)%nat ->
      let l := fst (tiles_run gz Wrapping fuel s n) in
      Forall (fun r => r = PixEnd \/ exists p, r = PixelOf p) l /\ length l = n /\
      len (filter is_pixel l) <= bt_naxis2 t * product (z_tilen z).
Proof. exact tiles_calls. Qed.
Print Assumptions C90_calls.

(** The same for the decoder of the [image] crate, which keeps asking for the samples of the other planes of a
    colour picture after the end of the first: an error when BZERO or BSCALE is no number, and otherwise a buffer
    of the same length, for pictures of one plane and of three. *)
Theorem C90_picture : forall gz fuel d dec t z,
  fills_buffer gz -> stays_in_buffer gz -> octets d -> decoder_new Wrapping fuel (mk_reader d 0) = Some (Ok dec) ->
  de_kind dec = KTiles t z -> table_laid_out d t (h_offset (de_hdu dec)) -> tile_header t z ->
  exists fuel0, forall fuel2 buf, (fuel0 <= fuel2)%nat ->
    ((exists sc, scaling (h_values (de_hdu dec)) sc) ->
     exists after, read_image gz Wrapping fuel2 dec buf = Some (Ok after) /\ len after = len buf) /\
    ((forall sc, ~ scaling (h_values (de_hdu dec)) sc) -> exists e, read_image gz Wrapping fuel2 dec buf = Some (Err e)).
Proof. exact tiles_picture. Qed.
Print Assumptions C90_picture.

(** *** Cases *)

(** The decoder of the examples stays in the buffer. *)
Example C90_decoder : stays_in_buffer ex_gz.
Proof.
  intros bytes n b w used P H. unfold ex_gz in H. pose proof (len_nonneg (slice (tl bytes) 0 (hd 0 bytes))) as L.
  destruct (n <=? len (slice (tl bytes) 0 (hd 0 bytes))) eqn:E; inversion H; subst; clear H.
  - split; [|lia]. unfold slice, len. rewrite firstn_length. lia.
  - lia.
Qed.

(** The image of C73 whose second descriptor points outside the file.  Its loop ends after the first tile, but
    further calls give that tile again, and only then ends: the iterator is not fused. *)
Theorem C90_fused_refuted : exists h f' t z,
  found_tiles Wrapping ex_astray h f' t z /\ laid_outb ex_astray t (h_offset h) && tile_headerb t z = true /\
  bt_naxis2 t * product (z_tilen z) = 12 /\
  option_map fst (ex_run_tiles ex_gz Wrapping f' (h_values h) t 16)
  = Some (let tile := map (fun v => PixelOf (PInt v)) [100; 103; 103; 103; -5; 2 ^ 30] in tile ++ [PixEnd] ++ tile ++ [PixEnd; PixEnd; PixEnd]).
Proof.
  apply ex_tiles; [vm_compute; reflexivity|vm_compute; reflexivity|vm_compute; discriminate|
    vm_compute; repeat (split || constructor); intros; discriminate].
Qed.
Print Assumptions C90_fused_refuted.

(** A colour picture whose second plane cannot be loaded: the green samples are left as they were, and the blue ones
    are the red ones. *)
Definition ex_rgb_astray : list Z :=
  ex_tiled_file "32" "RICE_1"
    ["NAXIS1  = 8"; "NAXIS2  = 3"; "TFIELDS = 1"; "TFORM1  = '1PB(15)'"; "TTYPE1  = 'COMPRESSED_DATA'";
     "ZNAXIS  = 3"; "ZNAXIS1 = 6"; "ZNAXIS2 = 1"; "ZNAXIS3 = 3"; "ZNAME1  = 'BLOCKSIZE'"; "ZVAL1   = 2"]
    [0; 0; 0; 15; 0; 0; 0; 0;   255; 255; 255; 255; 0; 0; 255; 255;   0; 0; 0; 15; 0; 0; 0; 0] (ex_bytes ++ repeat 9 25).
Example C90_colour_case : octets ex_rgb_astray /\
  exists dec, decoder_new Wrapping 9 (mk_reader ex_rgb_astray 0) = Some (Ok dec) /\
  match de_kind dec with
  | KTiles t z => laid_outb ex_rgb_astray t (h_offset (de_hdu dec)) && tile_headerb t z = true
  | KImage _ => False
  end /\ de_rgb dec = true /\ scale_of (h_values (de_hdu dec)) = Ok default_scale /\
  match read_image ex_gz Wrapping 30 dec (repeat 9 72) with
  | Some (Ok l) => len l = 72 /\ slice l 12 12 = [0; 0; 78; 51] ++ [9; 9; 9; 9] ++ [0; 0; 78; 51]
  | _ => False
  end.
Proof. split; [apply octetsb_ok; vm_compute; reflexivity|]. apply ex_decoder. vm_compute. repeat split. Qed.
