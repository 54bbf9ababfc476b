(** Tile-compressed images whose rows, tiles and heap hold anything (C73): the loop over the pixels ends, without
    a panic, in release builds.  The gzip decoder is not modelled: the theorem holds for every decoder that fills
    the buffer it was given when it reports no error. *)

From Coq Require Import String List.
From Verif Require Import Base Text Card Reader Header Xtension Bytes Fits ImageIt BinTable Rice Float Tile.
From Verif Require Import SpecCard SpecXt SpecFits SpecImage SpecBin SpecBinCut SpecRice SpecTile SpecTileSafe.
From Verif Require Import HeaderProofs FitsProofs4 BinProofs3 TileProofs6 TileProofs8 Prop_Fits Prop_Bin Prop_Rice Prop_Tile.
Local Open Scope string_scope.
Local Open Scope list_scope.
Local Open Scope Z_scope.

(** ** C73: loops over damaged tile-compressed images end without panicking *)

(** Only the header is asked for anything: whatever bytes the rows and the heap hold, and wherever the file ends,
    opening the image works and the loop yields whole tiles, at most one for every row that lies in the file,
    then the end. *)
Theorem C73_loop_ends : forall gz d f h f' t z,
  fills_buffer gz -> octets d -> rd_data (f_reader f) = d -> 0 <= rd_pos (f_reader f) -> next Wrapping f = (IOk h, f') ->
  h_xt h = XtBin t -> bt_zimage t = Some z -> table_laid_out d t (h_offset h) -> tile_header t z ->
  exists s fuel0, get_tiles Wrapping f' (h_values h) t = Some (Ok s) /\
    forall fuel, (fuel0 <= fuel)%nat -> exists ps s' rows,
      tiles_run gz Wrapping fuel s (S (length ps)) = (map PixelOf ps ++ [PixEnd], s') /\
      len ps = rows * product (z_tilen z) /\ 0 <= rows <= bt_naxis2 t /\
      (rows = 0 \/ h_offset h + rows * bt_naxis1 t <= len d).
Proof. exact tiles_end. Qed.
Print Assumptions C73_loop_ends.

(** *** Cases *)

(** The decoder of the examples fills the buffer. *)
Example C73_decoder : fills_buffer ex_gz.
Proof.
  intros bytes n b w used P H. unfold ex_gz in H. destruct (n <=? len (slice (tl bytes) 0 (hd 0 bytes))) eqn:E; [|discriminate].
  inversion H; subst. clear H. generalize dependent (slice (tl bytes) 0 (hd 0 bytes)). intros c E. unfold slice, len in *. cbn [Z.to_nat skipn] in *. change (Z.to_nat 0) with 0%nat. cbn [skipn]. rewrite firstn_length. lia.
Qed.

(** RICE: two rows, the tile of the first intact, the descriptor of the second far outside the file. *)
Definition ex_astray : list Z :=
  ex_tiled_file "32" "RICE_1"
    ["NAXIS1  = 8"; "NAXIS2  = 2"; "TFIELDS = 1"; "TFORM1  = '1PB(15)'"; "TTYPE1  = 'COMPRESSED_DATA'";
     "ZNAXIS  = 2"; "ZNAXIS1 = 6"; "ZNAXIS2 = 2"; "ZNAME1  = 'BLOCKSIZE'"; "ZVAL1   = 2"]
    [0; 0; 0; 15; 0; 0; 0; 0;   255; 255; 255; 255; 0; 0; 255; 255] (ex_bytes ++ repeat 9 25).
Example C73_astray_case : exists h f' t z,
  found_tiles Wrapping ex_astray h f' t z /\ laid_outb ex_astray t (h_offset h) && tile_headerb t z = true /\
  option_map fst (ex_run_tiles ex_gz Wrapping f' (h_values h) t 7)
  = Some (map (fun v => PixelOf (PInt v)) [100; 103; 103; 103; -5; 2 ^ 30] ++ [PixEnd]).
Proof.
  apply ex_tiles; [vm_compute; reflexivity|vm_compute; reflexivity|vm_compute; discriminate|
    vm_compute; repeat (split || constructor); intros; discriminate].
Qed.
(** Both tiles read from bytes that are no RICE code of anything: pixels all the same, and the end. *)
Definition ex_noise : list Z :=
  ex_tiled_file "32" "RICE_1"
    ["NAXIS1  = 8"; "NAXIS2  = 2"; "TFIELDS = 1"; "TFORM1  = '1PB(15)'"; "TTYPE1  = 'COMPRESSED_DATA'";
     "ZNAXIS  = 2"; "ZNAXIS1 = 2"; "ZNAXIS2 = 2"; "ZNAME1  = 'BLOCKSIZE'"; "ZVAL1   = 2"]
    [0; 0; 0; 15; 0; 0; 0; 0;   0; 0; 0; 0; 0; 0; 0; 3] (repeat 171 40).
Example C73_noise_case : exists h f' t z,
  found_tiles Wrapping ex_noise h f' t z /\ laid_outb ex_noise t (h_offset h) && tile_headerb t z = true /\
  exists a b c e, option_map fst (ex_run_tiles ex_gz Wrapping f' (h_values h) t 5)
  = Some (map (fun v => PixelOf (PInt v)) [a; b; c; e] ++ [PixEnd]).
Proof.
  apply ex_tiles; [vm_compute; reflexivity|vm_compute; reflexivity|vm_compute; discriminate|].
  assert (G : match ex_find_tiles Wrapping ex_noise with
    | Some (h, f', t, z) => laid_outb ex_noise t (h_offset h) && tile_headerb t z = true /\
        match option_map fst (ex_run_tiles ex_gz Wrapping f' (h_values h) t 5) with
        | Some [PixelOf (PInt _); PixelOf (PInt _); PixelOf (PInt _); PixelOf (PInt _); PixEnd] => True
        | _ => False
        end
    | None => False end) by (vm_compute; split; constructor).
  destruct (ex_find_tiles Wrapping ex_noise) as [[[[h f'] t] z]|]; [|contradiction]. destruct G as [G1 G2]. split; [exact G1|].
  destruct (option_map fst _) as [l|]; [|contradiction].
  repeat match type of G2 with match ?x with _ => _ end => destruct x; try contradiction end.
  do 4 eexists. reflexivity.
Qed.
(** Floats, and the file ends in the second row: the heap is gone with it, so there is no tile at all. *)
Definition ex_float_cut : list Z := firstn (Z.to_nat (5760 + 30)) (ex_floats "NO_DITHER" ex_ints).
Example C73_float_case : exists h f' t z,
  found_tiles Wrapping ex_float_cut h f' t z /\ laid_outb ex_float_cut t (h_offset h) && tile_headerb t z = true /\ z_bitpix z = BF32 /\
  option_map fst (ex_run_tiles ex_gz Wrapping f' (h_values h) t 1) = Some [PixEnd].
Proof.
  apply ex_tiles; [vm_compute; reflexivity|vm_compute; reflexivity|vm_compute; discriminate|
    vm_compute; repeat (split || constructor); intros; discriminate].
Qed.
Example C73_case_hypotheses : forall d t o z, laid_outb d t o && tile_headerb t z = true -> table_laid_out d t o /\ tile_header t z.
Proof. intros d t o z H. apply andb_prop in H as [H1 H2]. split; [apply laid_outb_ok, H1|apply tile_headerb_ok, H2]. Qed.

(** *** Headers outside the statement *)

(** Every build panics on a tile column that is no array column, and on an integer column ZSCALE (see also
    C42_wide_column_refuted, C42_no_scale_refuted, C42_no_tile_refuted and C39_huge_tile). *)
Definition ex_no_array : list Z :=
  ex_tiled_file "32" "GZIP_1"
    ["NAXIS1  = 8"; "NAXIS2  = 1"; "TFIELDS = 1"; "TFORM1  = '1K'"; "TTYPE1  = 'COMPRESSED_DATA'"; "ZNAXIS  = 1"; "ZNAXIS1 = 1"]
    (repeat 0 8) (repeat 0 40).
Theorem C73_no_array_refuted : forall m, exists h f' t z,
  found_tiles m ex_no_array h f' t z /\ laid_outb ex_no_array t (h_offset h) = true /\
  option_map fst (ex_run_tiles ex_gz m f' (h_values h) t 1) = Some [PixPanic].
Proof. ex_tiles_check. Qed.
Print Assumptions C73_no_array_refuted.
Definition ex_int_scale : list Z :=
  ex_tiled_file "-32" "GZIP_1"
    ["NAXIS1  = 20"; "NAXIS2  = 1"; "TFIELDS = 3"; "TFORM1  = '1J'"; "TTYPE1  = 'ZSCALE'"; "TFORM2  = '1PB(5)'"; "TTYPE2  = 'COMPRESSED_DATA'";
     "TFORM3  = '1D'"; "TTYPE3  = 'ZZERO'"; "ZNAXIS  = 1"; "ZNAXIS1 = 1"]
    [0; 0; 0; 1;   0; 0; 0; 5; 0; 0; 0; 0;   0; 0; 0; 0; 0; 0; 0; 0] ([4] ++ flat_map be4 [1] ++ repeat 0 35).
Theorem C73_int_scale_refuted : forall m, exists h f' t z,
  found_tiles m ex_int_scale h f' t z /\ tiledb ex_int_scale t (h_offset h) z = true /\
  option_map fst (ex_run_tiles ex_gz m f' (h_values h) t 1) = Some [PixPanic].
Proof. ex_tiles_check. Qed.
Print Assumptions C73_int_scale_refuted.

(** A header as the theorem has it, in a build with overflow checks: a long descriptor makes the place of the
    tile overflow. *)
Definition ex_far : list Z :=
  ex_tiled_file "32" "GZIP_1"
    ["NAXIS1  = 16"; "NAXIS2  = 2"; "TFIELDS = 1"; "TFORM1  = '1QB(5)'"; "TTYPE1  = 'COMPRESSED_DATA'"; "ZNAXIS  = 1"; "ZNAXIS1 = 1"]
    ([0; 0; 0; 0; 0; 0; 0; 5] ++ [127; 255; 255; 255; 255; 255; 255; 255] ++ repeat 0 16) (repeat 0 40).
Theorem C73_checked_refuted : exists h f' t z,
  found_tiles Checked ex_far h f' t z /\ laid_outb ex_far t (h_offset h) && tile_headerb t z = true /\
  option_map fst (ex_run_tiles ex_gz Checked f' (h_values h) t 1) = Some [PixPanic].
Proof.
  apply ex_tiles; [vm_compute; reflexivity|vm_compute; reflexivity|vm_compute; discriminate|
    vm_compute; repeat (split || constructor); intros; discriminate].
Qed.
Print Assumptions C73_checked_refuted.
