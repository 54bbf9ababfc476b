(** The decoder of the [image] crate on any file (C88): panics, errors and the length of what it gives. *)

From Coq Require Import String List.
From Verif Require Import Base Utf8 Text Card Reader Header Xtension Bytes Fits ImageIt BinTable Rice Float Tile ImageInt.
From Verif Require Import HeaderProofs FitsProofs4 TileProofs6 TileProofs8 ImageIntProofs2 ImageSafeProofs.
From Verif Require Import SpecUtf8 SpecCard SpecHeader SpecXt SpecFits SpecPanic SpecImage SpecBin SpecBinCut SpecRice SpecTile SpecTileSafe SpecImageInt.
From Verif Require Import Prop_Fits Prop_Panic Prop_Bin Prop_Rice Prop_Tile Prop_TileSafe Prop_ImageInt.
Local Open Scope string_scope.
Local Open Scope list_scope.
Local Open Scope Z_scope.

(** Opening any bytes in a release build panics only where a header of the file makes every build panic: a value
    that is a single quote, or a count no vector can be made for (C76). *)
Theorem C88_opening : forall d fuel,
  octets d -> decoder_new Wrapping fuel (mk_reader d 0) = Some Panic -> exists primary q, 0 <= q /\ panics_at d primary q.
Proof. exact opening_panic. Qed.
Print Assumptions C88_opening.

(** Reading an image that was opened, whatever its size, wherever the file ends and however long the buffer is: an
    error when BZERO or BSCALE is no number, and otherwise a buffer of the same length.  No build panics. *)
Theorem C88_image : forall gz m fuel d dec im buf,
  octets d -> decoder_new m fuel (mk_reader d 0) = Some (Ok dec) -> de_kind dec = KImage im -> forall fuel2,
  ((exists sc, scaling (h_values (de_hdu dec)) sc) ->
   exists after, read_image gz m fuel2 dec buf = Some (Ok after) /\ len after = len buf) /\
  ((forall sc, ~ scaling (h_values (de_hdu dec)) sc) -> exists e, read_image gz m fuel2 dec buf = Some (Err e)).
Proof. exact image_any. Qed.
Print Assumptions C88_image.

(** Reading a tile-compressed picture of one plane in a release build, whatever bytes the rows and the heap hold
    and wherever the file ends: whole tiles are shown, and the rest of the buffer is as it was. *)
Theorem C88_tiles : forall gz fuel d dec t z sc,
  fills_buffer gz -> octets d -> decoder_new Wrapping fuel (mk_reader d 0) = Some (Ok dec) ->
  de_kind dec = KTiles t z -> de_rgb dec = false -> scaling (h_values (de_hdu dec)) sc ->
  table_laid_out d t (h_offset (de_hdu dec)) -> tile_header t z ->
  let b := z_bitpix z in
  exists fuel0, forall fuel2, (fuel0 <= fuel2)%nat -> exists pixels rows,
    len pixels = rows * product (z_tilen z) /\ 0 <= rows <= bt_naxis2 t /\
    forall buf, exists after, read_image gz Wrapping fuel2 dec buf = Some (Ok after) /\
      laid_out (depth b) (channels b false) (place false) (map (tile_sample b sc) pixels) buf after.
Proof. exact tiles_any. Qed.
Print Assumptions C88_tiles.

(** *** Cases *)

Definition outcome {A} (x : option (res A)) : option (res unit) :=
  match x with Some (Ok _) => Some (Ok tt) | Some (Err e) => Some (Err e) | Some Panic => Some Panic | None => None end.
Example C88_opening_case : let d := file_bytes ex_columns in
  octets d /\ outcome (decoder_new Wrapping 9 (mk_reader d 0)) = Some Panic.
Proof. split; [apply octetsb_ok; vm_compute; reflexivity|vm_compute; reflexivity]. Qed.

(** More bytes than 64 bits can count, in a file of 30; and a BZERO that is no number. *)
Definition ex_vast (zero : string) : list Z :=
  header_bytes (ex_source ["SIMPLE  = T"; "BITPIX  = 64"; "NAXIS   = 3"; "NAXIS1  = 4294967295"; "NAXIS2  = 4294967295"; "NAXIS3  = 3"; zero] [])
  ++ repeat 0 30.
Example C88_vast_case : octets (ex_vast "BZERO   = 1") /\
  exists dec, decoder_new Wrapping 9 (mk_reader (ex_vast "BZERO   = 1") 0) = Some (Ok dec) /\
  de_kind dec = KImage (mk_image BI64 [4294967295; 4294967295; 3]) /\
  scale_of (h_values (de_hdu dec)) = Ok (mk_scale (f64_of_int 1) (f64_of_int 1)) /\
  match read_image ex_gz Wrapping 0 dec (repeat 9 25) with Some (Ok l) => len l = 25 /\ skipn 16 l = repeat 9 9 | _ => False end.
Proof. split; [apply octetsb_ok; vm_compute; reflexivity|]. apply ex_decoder. vm_compute. repeat split. Qed.
Example C88_no_number_case : octets (ex_vast "BZERO   = 'a'") /\
  exists dec, decoder_new Wrapping 9 (mk_reader (ex_vast "BZERO   = 'a'") 0) = Some (Ok dec) /\
  de_kind dec = KImage (mk_image BI64 [4294967295; 4294967295; 3]) /\
  scale_of (h_values (de_hdu dec)) = Err EDynamic /\ read_image ex_gz Wrapping 0 dec (repeat 9 25) = Some (Err EDynamic).
Proof. split; [apply octetsb_ok; vm_compute; reflexivity|]. apply ex_decoder. vm_compute. repeat split. Qed.
Example C88_case_hypotheses : forall vs, scale_of vs = Err EDynamic -> forall sc, ~ scaling vs sc.
Proof. intros vs E sc H. apply scale_of_iff in H. congruence. Qed.

(** The image of C73 with a descriptor far outside the file: its first row is shown. *)
Example C88_tiles_case : octets ex_astray /\
  exists dec, decoder_new Wrapping 9 (mk_reader ex_astray 0) = Some (Ok dec) /\
  match de_kind dec with
  | KTiles t z => laid_outb ex_astray t (h_offset (de_hdu dec)) && tile_headerb t z = true /\ z_bitpix z = BI32 /\ product (z_tilen z) = 6
  | KImage _ => False
  end /\ de_rgb dec = false /\ scale_of (h_values (de_hdu dec)) = Ok default_scale /\
  match read_image ex_gz Wrapping 30 dec (repeat 9 144) with Some (Ok l) => len l = 144 /\ skipn 72 l = repeat 9 72 | _ => False end.
Proof. split; [apply octetsb_ok; vm_compute; reflexivity|]. apply ex_decoder. vm_compute. repeat split. Qed.

(** *** Headers outside the statements *)

(** A tile column that is no array column: the file opens, and reading the picture panics in every build. *)
Definition ex_flat_tiles : list Z :=
  ex_tiled_file "32" "GZIP_1"
    ["NAXIS1  = 8"; "NAXIS2  = 1"; "TFIELDS = 1"; "TFORM1  = '1K'"; "TTYPE1  = 'COMPRESSED_DATA'";
     "ZNAXIS  = 2"; "ZNAXIS1 = 1"; "ZNAXIS2 = 1"] (repeat 0 8) (repeat 0 40).
Theorem C88_no_array_refuted : forall m, exists dec, decoder_new m 9 (mk_reader ex_flat_tiles 0) = Some (Ok dec) /\
  de_width dec = 1 /\ de_height dec = 1 /\ read_image ex_gz m 30 dec (repeat 0 12) = Some Panic.
Proof. intro m. apply ex_decoder. destruct m; vm_compute; repeat split. Qed.
Print Assumptions C88_no_array_refuted.
(** In a build with overflow checks a descriptor can do it. *)
Definition ex_far_tiles : list Z :=
  ex_tiled_file "32" "GZIP_1"
    ["NAXIS1  = 16"; "NAXIS2  = 2"; "TFIELDS = 1"; "TFORM1  = '1QB(5)'"; "TTYPE1  = 'COMPRESSED_DATA'"; "ZNAXIS  = 2"; "ZNAXIS1 = 1"; "ZNAXIS2 = 2"]
    ([0; 0; 0; 0; 0; 0; 0; 5] ++ [127; 255; 255; 255; 255; 255; 255; 255] ++ repeat 0 16) (repeat 0 40).
Theorem C88_checked_refuted : exists dec, decoder_new Checked 9 (mk_reader ex_far_tiles 0) = Some (Ok dec) /\
  match de_kind dec with
  | KTiles t z => laid_outb ex_far_tiles t (h_offset (de_hdu dec)) && tile_headerb t z = true
  | KImage _ => False
  end /\ read_image ex_gz Checked 30 dec (repeat 0 24) = Some Panic.
Proof. apply ex_decoder. vm_compute. repeat split. Qed.
Print Assumptions C88_checked_refuted.
