(** Properties of files with tile-compressed integer images (C62): what a program following the
    standard writes is what the crate gives back, tile after tile.  [SpecWriteTile] holds the
    writing side: [zpicture_written] for every spelling the standard allows, [write_zfile] for a
    concrete writer with any choice of RICE codings. *)

From Coq Require Import String List.
From Verif Require Import Base Utf8 Text Card Reader Header Xtension Bytes Fits ImageIt BinTable Rice Float Tile.
From Verif Require Import SpecUtf8 SpecCard SpecHeader SpecXt SpecFits SpecImage SpecBin SpecRice SpecTile SpecWrite SpecWriteTable SpecWriteTile.
From Verif Require Import WriteProofs6 WriteProofs7 WriteProofs8 WriteProofs9.
Local Open Scope string_scope.
Local Open Scope list_scope.
Local Open Scope Z_scope.

(** An HDU with a compressed image anywhere in a file: it is accepted, ... *)
Theorem C62_image_accepted : forall gz m p s, zpicture_written gz m p s -> accepted m (HBinTable, s).
Proof. exact accepted_zpicture. Qed.
Print Assumptions C62_image_accepted.

(** ... and the call of [next] that reaches it gives the compression, the pixel type, the axes and
    the tiles.  The pixels are those of the first tile, then those of the second, and so on, each
    tile in its own order, and then the end, for ever. *)
Theorem C62_image_read_back : forall gz m d pre s post p l f,
  octets d -> file_kinds (pre ++ (HBinTable, s) :: post) -> Forall (accepted m) pre -> zpicture_written gz m p s ->
  d = file_bytes (pre ++ (HBinTable, s) :: post) -> len d < 2 ^ 63 ->
  yields m (opened d) l f -> List.length l = S (List.length pre) ->
  exists l' h t z st fuel0, l = l' ++ [IOk h] /\ h_kind h = HBinTable /\ h_xt h = XtBin t /\
    bt_zimage t = Some z /\ zimage_of p z /\
    get_tiles m f (h_values h) t = Some (Ok st) /\
    forall fuel n, (fuel0 <= fuel)%nat -> fst (tiles_run gz m fuel st n)
      = firstn n (map PixelOf (map PInt (tilewise p)) ++ repeat PixEnd n).
Proof. exact zpicture_read_back. Qed.
Print Assumptions C62_image_read_back.

(** When the tiles are rows, runs of rows, or parts of rows one after the other, that is the image. *)
Theorem C62_rows_in_order : forall p,
  slabs (zp_dims p) (zp_tiles p) -> whole_tiles (zp_dims p) (zp_tiles p) -> len (zp_pixels p) = product (zp_dims p) ->
  tilewise p = zp_pixels p.
Proof. exact tilewise_slabs. Qed.
Print Assumptions C62_rows_in_order.

(** A whole file of images, tables and compressed images (those of floats are in [Prop_WriteFloat]), in any
    spelling and order. *)
Theorem C62_file_read_back : forall gz m d hs cs,
  octets d -> file_kinds hs -> Forall2 (zcontent_written gz m) cs hs -> d = file_bytes hs -> len d < 2 ^ 63 ->
  exists full, Forall2 zshown cs full /\
    (exists f, yields m (opened d) (full ++ [INone]) f) /\
    forall l f, yields m (opened d) l f ->
      ((List.length l <= List.length cs + 1)%nat -> l = firstn (List.length l) (full ++ [INone])) /\
      forall n c, List.length l = S n -> nth_error cs n = Some c ->
        exists i, nth_error l n = Some i /\ zcontained gz m c i f.
Proof. exact zfiles_listed. Qed.
Print Assumptions C62_file_read_back.

(** Every list of images, tables and images with their RICE codings has such a file, ... *)
Theorem C62_files_round_trip : forall gz m p ws,
  picture_ok p -> Forall (zwritable_ok m) ws -> let d := file_bytes (write_zfile p ws) in len d < 2 ^ 63 ->
  let cs := Plain (Picture p) :: map zwritten ws in
  exists full, Forall2 zshown cs full /\
    (exists f, yields m (opened d) (full ++ [INone]) f) /\
    forall l f, yields m (opened d) l f ->
      ((List.length l <= List.length cs + 1)%nat -> l = firstn (List.length l) (full ++ [INone])) /\
      forall n c, List.length l = S n -> nth_error cs n = Some c ->
        exists i, nth_error l n = Some i /\ zcontained gz m c i f.
Proof. exact zfiles_round_trip. Qed.
Print Assumptions C62_files_round_trip.

(** ... and every tile has a coding. *)
Theorem C62_every_tile_coded : forall p bs k, 1 <= bs ->
  whole_tiles (zp_dims p) (zp_tiles p) -> len (zp_pixels p) = product (zp_dims p) ->
  0 <= k < product (grid (zp_dims p) (zp_tiles p)) ->
  block_pixels (uncoded p bs k) = tile_pixels (zp_dims p) (zp_tiles p) (zp_pixels p) k /\
  blocks_ok RI32 bs (hd 0 (block_pixels (uncoded p bs k))) (uncoded p bs k) /\
  short_runs RI32 (hd 0 (block_pixels (uncoded p bs k))) (uncoded p bs k).
Proof. exact uncoded_ok. Qed.
Print Assumptions C62_every_tile_coded.

(** A 4 x 2 image of 16-bit integers, one tile per row, coded in blocks of 2: split at level 1, all
    zero, and raw. *)
Definition ex_image : zpicture :=
  mk_zpicture (ZRice 2 4) BI16 [(4, None); (2, None)] [(chars "BLOCKSIZE", 2); (chars "BYTEPIX", 4)]
    [100; 103; 103; 103; 5; -5; -300; 32000].
Definition ex_coding (k : Z) : list (coding * list Z) :=
  if k =? 0 then [(SplitAt 1, [100; 103]); (AllZero, [103; 103])] else [(SplitAt 3, [5; -5]); (Raw, [-300; 32000])].

Example C62_ex_ok : zpicture_ok ex_image 2 ex_coding /\ gently_coded ex_image ex_coding /\ slabs (zp_dims ex_image) (zp_tiles ex_image).
Proof.
  assert (K : forall k, 0 <= k < product (grid (zp_dims ex_image) (zp_tiles ex_image)) -> k = 0 \/ k = 1).
  { change (product (grid (zp_dims ex_image) (zp_tiles ex_image))) with 2. lia. }
  split; [|split].
  - split; [right; left; reflexivity|]. split; [repeat constructor; vm_compute; try discriminate; reflexivity|].
    unfold codings_ok. split; [vm_compute; discriminate|]. split; [repeat constructor|]. split; [reflexivity|]. split; [reflexivity|]. split; [lia|].
    split; [change (whole_tiles [4; 2] [4; 1]); repeat constructor; cbn; lia|]. split; [vm_compute; discriminate|]. split; [reflexivity|].
    split; [|split; vm_compute; reflexivity].
    intros k R. destruct (K k R) as [->| ->]; (split; [reflexivity|]); cbn; repeat split; try lia; repeat constructor; vm_compute; discriminate.
  - intros k R. destruct (K k R) as [->| ->]; (split; [cbn; lia|]); cbn [short_runs ex_coding Z.eqb Pos.eqb];
      (split; [repeat (apply Forall_cons || apply Forall_nil); vm_compute; discriminate|repeat split]).
  - change (slabs [4; 2] [4; 1]). apply slabs_full; [lia|]. apply (slabs_part 2 1 []); [lia|lia|reflexivity].
Qed.

Example C62_ex :
  let d := file_bytes (write_zfile (BU8, [], []) [WCompressed ex_image 2 ex_coding; WPlain (Picture (BU8, [2], [7; 9]))]) in
  let f := snd (run Checked 2 (opened d)) in
  len d = 5 * 2880 /\
  slice d (2880 + 10 * 80) 30 = chars "ZIMAGE  =                    T" /\
  match nth_error (fst (run Checked 2 (opened d))) 1 with
  | Some (IOk h) =>
    match h_xt h with
    | XtBin t =>
      match get_tiles Checked f (h_values h) t with
      | Some (Ok st) =>
        fst (tiles_run (fun _ _ => (None, [], 0)) Checked 12 st 9)
        = map (fun v => PixelOf (PInt v)) [100; 103; 103; 103; 5; -5; -300; 32000] ++ [PixEnd]
      | _ => False
      end
    | _ => False
    end
  | _ => False
  end.
Proof. vm_compute. repeat split. Qed.
