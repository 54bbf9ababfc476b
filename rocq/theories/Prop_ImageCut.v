(** Random access to images of which the end is missing (C75).  [SpecImageCut] holds the
    specification side. *)

From Coq Require Import String List Lia ZifyBool.
From Verif Require Import Base Utf8 Text Card Reader Header Xtension Bytes Fits ImageIt.
From Verif Require Import SpecUtf8 SpecCard SpecHeader SpecXt SpecFits SpecImage SpecImageCut.
From Verif Require Import HeaderProofs FitsProofs4 ImageProofs ImageCutProofs Prop_Fits Prop_Image.
Local Open Scope string_scope.
Local Open Scope list_scope.
Local Open Scope Z_scope.

(** Every history of [next] and [read_value], wherever the file ends. *)
Theorem C75_history : forall m d f h f' im,
  octets d -> len d < 2 ^ 63 -> rd_data (f_reader f) = d -> 0 <= rd_pos (f_reader f) ->
  next m f = (IOk h, f') -> h_xt h = XtImage im -> size_fits im -> width (im_bitpix im) * pixel_count im < 2 ^ 63 ->
  exists id, get_image m f' im = Ok id /\
    forall ops, Forall op_ok ops ->
      cut_history d (im_bitpix im) (pixel_count im) 0 (h_offset h) ops (fst (pixel_run m (id_pixels id) ops)).
Proof. exact cut_images. Qed.
Print Assumptions C75_history.

(** As long as every call gave a value, the values are those of the image. *)
Theorem C75_good : forall m d f h f' im,
  octets d -> len d < 2 ^ 63 -> rd_data (f_reader f) = d -> 0 <= rd_pos (f_reader f) ->
  next m f = (IOk h, f') -> h_xt h = XtImage im -> size_fits im -> width (im_bitpix im) * pixel_count im < 2 ^ 63 ->
  exists id values, get_image m f' im = Ok id /\
    len values = Z.min (pixel_count im) ((len d - h_offset h) / width (im_bitpix im)) /\
    stored d (h_offset h) (im_bitpix im) values /\
    forall ops, Forall op_ok ops -> Forall gave_value (fst (pixel_run m (id_pixels id) ops)) ->
      fst (pixel_run m (id_pixels id) ops) = pixel_spec values 0 ops.
Proof. exact cut_while_good. Qed.
Print Assumptions C75_good.

(** After a pixel [i] that the file does not hold, pixel [j] is looked for at its distance from the
    end of the file. *)
Theorem C75_after : forall m d f h f' im,
  octets d -> len d < 2 ^ 63 -> rd_data (f_reader f) = d -> 0 <= rd_pos (f_reader f) ->
  next m f = (IOk h, f') -> h_xt h = XtImage im -> size_fits im -> width (im_bitpix im) * pixel_count im < 2 ^ 63 ->
  forall i j, u64 i -> u64 j -> i < pixel_count im ->
  len d < h_offset h + width (im_bitpix im) * i + width (im_bitpix im) ->
  j <= i -> 0 <= len d - width (im_bitpix im) * (i + 1 - j) ->
  exists id v, get_image m f' im = Ok id /\
    stored d (len d - width (im_bitpix im) * (i + 1 - j)) (im_bitpix im) [v] /\
    fst (pixel_run m (id_pixels id) [PRead i; PRead j]) = [RError; RValue v].
Proof. exact cut_after. Qed.
Print Assumptions C75_after.

(** Five 16-bit pixels of which the file holds two: pixels 1 and 0 are read; then pixel 2 is
    missing, and from there pixel 2 comes out as pixel 1 and pixel 1 as pixel 0. *)
Definition ex_two : list Z :=
  header_bytes (ex_source ["SIMPLE  = T"; "BITPIX  = 16"; "NAXIS   = 1"; "NAXIS1  = 5"] []) ++ [0; 7; 0; 8].
Example C75_case : forall m, exists h f' im id,
  next m (opened ex_two) = (IOk h, f') /\ h_xt h = XtImage im /\ get_image m f' im = Ok id /\
  octets ex_two /\ size_fits im /\ width (im_bitpix im) * pixel_count im < 2 ^ 63 /\
  h_offset h = 2880 /\ stored ex_two (h_offset h) (im_bitpix im) [7; 8] /\
  fst (pixel_run m (id_pixels id) [PRead 1; PRead 0; PNext]) = [RValue 8; RValue 7; RValue 8] /\
  fst (pixel_run m (id_pixels id) [PNext; PNext; PNext; PRead 2; PRead 1]) = [RValue 7; RValue 8; REnd; RValue 8; RValue 7] /\
  fst (pixel_run m (id_pixels id) [PRead 2; PRead 1]) = [RError; RValue 7].
Proof.
  intro m.
  destruct (item_ok (next m (opened ex_two)) (fun h => h_xt h = XtImage (mk_image BI16 [5]) /\ h_offset h = 2880)
              (mk_fits false 2880 10 false (mk_reader ex_two 2880))) as (h & N & X & HO).
  - destruct m; vm_compute; split; reflexivity.
  - destruct m; vm_compute; reflexivity.
  - exists h, (mk_fits false 2880 10 false (mk_reader ex_two 2880)), (mk_image BI16 [5]).
    exists (mk_image_data 2880 10 (mk_it BI16 (mk_reader ex_two 2880) 5 0)).
    split; [exact N|]. split; [exact X|].
    split; [destruct m; vm_compute; reflexivity|].
    split; [apply octetsb_ok; vm_compute; reflexivity|].
    split. { split; [|vm_compute; reflexivity]. intros l r E. destruct l as [|a [|b l]]; inversion E; subst; vm_compute; reflexivity. }
    split; [vm_compute; reflexivity|]. split; [exact HO|]. rewrite HO.
    split; [|split; [|split]; destruct m; vm_compute; reflexivity].
    split; [discriminate|]. split; [vm_compute; discriminate|]. split; [|vm_compute; reflexivity].
    repeat constructor; vm_compute; discriminate.
Qed.
