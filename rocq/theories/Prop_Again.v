(** Images asked again after a failure of the device (C94).  [dev_pixel_run] is a series of calls of [next] and
    [read_value] that goes on after calls that failed; [SpecAgain] holds the specification side. *)

From Coq Require Import String List Lia ZifyBool.
From Verif Require Import Base Utf8 Text Card Reader Header Xtension Bytes Fits ImageIt Device.
From Verif Require Import SpecUtf8 SpecCard SpecHeader SpecXt SpecFits SpecImage SpecDevice SpecAgain.
From Verif Require Import HeaderProofs FitsProofs4 ImageProofs DeviceProofs DeviceTableProofs AgainProofs.
From Verif Require Import Prop_Fits Prop_Image Prop_Device.
Local Open Scope string_scope.
Local Open Scope list_scope.
Local Open Scope Z_scope.

(** Any series of calls over any failures that move by at most a pixel each, as long as nothing outside the
    file is asked for: what each call gives, and how far ([e]) the device then lags behind the index.  From
    then on the iterator is one over as many values stored [e] bytes earlier. *)
Theorem C94_run : forall m d f fs0 h f' fs im,
  octets d -> len d < 2 ^ 63 -> rd_data (f_reader f) = d -> 0 <= rd_pos (f_reader f) ->
  dev_next m f fs0 = (IOk h, f', fs) -> h_xt h = XtImage im -> size_fits im ->
  within_pixel (im_bitpix im) fs -> width (im_bitpix im) * failures fs <= h_offset h ->
  h_offset h + width (im_bitpix im) * pixel_count im + moved_by fs <= len d ->
  exists id at_byte, get_image m f' im = Ok id /\
    (forall p, 0 <= p -> p + width (im_bitpix im) <= len d -> stored d p (im_bitpix im) [at_byte p]) /\
    forall ops, Forall op_ok ops ->
    exists l c e rest s,
      late_run at_byte (h_offset h) (width (im_bitpix im)) (pixel_count im) 0 0 ops fs = (l, c, e, rest) /\
      dev_pixel_run m (id_pixels id) ops fs = (l, s, rest) /\
      exists values, stored d (h_offset h - e) (im_bitpix im) values /\ len values = pixel_count im /\
        (forall more, Forall op_ok more -> fst (pixel_run m s more) = pixel_spec values (Z.to_nat c) more) /\
        (h_offset h + in_blocks (width (im_bitpix im) * pixel_count im) < 2 ^ 63 ->
         let here := width (im_bitpix im) * c - e in
         if (match m with Checked => false | Wrapping => true end)
            || ((0 <=? here) && (here <=? width (im_bitpix im) * pixel_count im))
         then next m (give_back f' (it_reader s)) = next m f'
         else fst (next m (give_back f' (it_reader s))) = IPanic).
Proof. exact image_again. Qed.
Print Assumptions C94_run.

(** A loop that a failure ended at pixel [i], the device not having moved: taken up again, it gives pixel [i]
    and the following ones but never the last, and [read_value j] gives pixel [j - 1]. *)
Theorem C94_loop : forall m d f fs0 h f' fs im i,
  octets d -> len d < 2 ^ 63 -> rd_data (f_reader f) = d -> 0 <= rd_pos (f_reader f) ->
  dev_next m f fs0 = (IOk h, f', fs) -> h_xt h = XtImage im -> size_fits im ->
  fs = repeat None i ++ [Some 0] -> Z.of_nat i < pixel_count im ->
  h_offset h + width (im_bitpix im) * pixel_count im <= len d ->
  exists id values before s, get_image m f' im = Ok id /\
    stored d (h_offset h) (im_bitpix im) values /\ len values = pixel_count im /\
    stored d (h_offset h - width (im_bitpix im)) (im_bitpix im) [before] /\
    dev_pixel_run m (id_pixels id) (repeat PNext (S i)) fs = (map RValue (firstn i values) ++ [REnd], s, []) /\
    forall more, Forall op_ok more ->
      fst (pixel_run m s more) = pixel_spec (before :: removelast values) (S i) more.
Proof. exact loop_again. Qed.
Print Assumptions C94_loop.

(** After at most one failure, at which the device did not move, the next HDU is found as if nothing had been read. *)
Theorem C94_next_hdu : forall m d f fs0 h f' fs im,
  octets d -> len d < 2 ^ 63 -> rd_data (f_reader f) = d -> 0 <= rd_pos (f_reader f) ->
  dev_next m f fs0 = (IOk h, f', fs) -> h_xt h = XtImage im -> size_fits im ->
  Forall (fun x => match x with Some k => k = 0 | None => True end) fs -> failures fs <= 1 ->
  h_offset h + width (im_bitpix im) * pixel_count im <= len d ->
  h_offset h + in_blocks (width (im_bitpix im) * pixel_count im) < 2 ^ 63 ->
  exists id, get_image m f' im = Ok id /\
    forall ops, Forall op_ok ops ->
    next m (give_back f' (it_reader (snd (fst (dev_pixel_run m (id_pixels id) ops fs))))) = next m f'.
Proof. exact one_failure. Qed.
Print Assumptions C94_next_hdu.

(** The second HDU of the example file: its pixels are 1 to 6. *)
Definition ex_first : fits := snd (run Checked 1 (opened (file_bytes ex_file))).
Definition ex_again (ops : list pixel_op) (fs : faults) (more : list pixel_op) :=
  let '(l, s, rest) := dev_pixel_run Checked ex_it ops fs in (l, fst (pixel_run Checked s more), rest).

Example C94_case :
  ex_again [PNext; PNext; PNext] [None; None; Some 0] [PNext; PNext; PNext; PNext; PNext]
    = ([RValue 1; RValue 2; REnd], [RValue 3; RValue 4; RValue 5; REnd; REnd], []) /\
  ex_again [PNext; PNext; PNext] [None; None; Some 0] [PRead 4; PNext; PRead 1]
    = ([RValue 1; RValue 2; REnd], [RValue 4; RValue 5; RValue 1], []) /\
  ex_again [PNext; PNext; PNext] [None; None; Some 2] [PNext; PRead 0]
    = ([RValue 1; RValue 2; REnd], [RValue 4; RValue 1], []) /\
  ex_again [PNext; PNext; PNext] [None; None; Some 1] [PNext]
    = ([RValue 1; RValue 2; REnd], [RValue 768], []) /\
  ex_again [PRead 3; PRead 3] [Some 0; None; Some 0] [PRead 3; PRead 5]
    = ([RError; RError], [RValue 3; RValue 5], []).
Proof. vm_compute. repeat split; reflexivity. Qed.

(** It meets the hypotheses. *)
Definition ex_found (fs : faults) : option (Z * xtension) * faults :=
  match dev_next Checked ex_first fs with (IOk h, _, r) => (Some (h_offset h, h_xt h), r) | (_, _, r) => (None, r) end.
Definition ex_calls : nat := length (repeat (@None Z) 40) - length (snd (ex_found (repeat None 40))).
Example C94_case_hyps :
  octetsb (file_bytes ex_file) = true /\ rd_data (f_reader ex_first) = file_bytes ex_file /\
  ex_found (repeat None ex_calls ++ [None; None; Some 0]) = (Some (8640, XtImage (mk_image BI16 [2; 3])), [None; None; Some 0]) /\
  pixel_count (mk_image BI16 [2; 3]) = 6 /\ (8640 + 2 * 6 <=? len (file_bytes ex_file)) = true.
Proof. vm_compute. repeat split; reflexivity. Qed.

(** "After a failure that was reported (here as the end of the pixels), [read_value] gives the pixel asked for
    or an error" is false: here the file holds the pixels 1, 2 and 3, the first call fails, and [read_value(1)]
    then gives 1. *)
Definition ex_three : list Z :=
  header_bytes (ex_source ["SIMPLE  = T"; "BITPIX  = 16"; "NAXIS   = 1"; "NAXIS1  = 3"] []) ++ [0; 1; 0; 2; 0; 3].

Theorem C94_value_refuted : forall m, exists h f' im id values s,
  next m (opened ex_three) = (IOk h, f') /\ h_xt h = XtImage im /\ get_image m f' im = Ok id /\
  pixel_count im = 3 /\ values = [1; 2; 3] /\ stored ex_three (h_offset h) (im_bitpix im) values /\
  dev_pixel_run m (id_pixels id) [PNext] [Some 0] = ([REnd], s, []) /\
  fst (pixel_run m s [PRead 1; PNext; PNext]) = [RValue 1; RValue 2; REnd].
Proof.
  intro m.
  destruct (item_ok (next m (opened ex_three)) (fun h => h_xt h = XtImage (mk_image BI16 [3]) /\ h_offset h = 2880)
              (mk_fits false 2880 6 false (mk_reader ex_three 2880))) as (h & N & X & HO).
  - destruct m; vm_compute; split; reflexivity.
  - destruct m; vm_compute; reflexivity.
  - exists h, (mk_fits false 2880 6 false (mk_reader ex_three 2880)), (mk_image BI16 [3]),
      (mk_image_data 2880 6 (it_new BI16 (mk_reader ex_three 2880) 6)), [1; 2; 3],
      (mk_it BI16 (mk_reader ex_three 2880) 3 1).
    split; [exact N|]. split; [exact X|].
    split; [destruct m; vm_compute; reflexivity|]. rewrite HO. split; [reflexivity|]. split; [reflexivity|].
    split; [|split; destruct m; vm_compute; reflexivity].
    split; [discriminate|]. split; [vm_compute; discriminate|]. split; [|vm_compute; reflexivity].
    repeat constructor; vm_compute; discriminate.
Qed.
Print Assumptions C94_value_refuted.

(** "After failures the next HDU is found as if nothing had been read" is false in a checked build: two failures of
    [next], then [read_value(0)], and the device is in front of the data unit. *)
Definition ex_twice (m : mode) : fits :=
  give_back ex_second (it_reader (snd (fst (dev_pixel_run m ex_it [PNext; PNext; PRead 0] [Some 0; Some 0])))).
Theorem C94_next_hdu_refuted :
  summary (fst (next Checked ex_second)) = Some (HAsciiTable, 14400, Ok 3) /\
  fst (fst (dev_pixel_run Checked ex_it [PNext; PNext; PRead 0] [Some 0; Some 0])) = [REnd; REnd; RValue 8224] /\
  fst (next Checked (ex_twice Checked)) = IPanic /\
  summary (fst (next Wrapping (ex_twice Wrapping))) = Some (HAsciiTable, 14400, Ok 3).
Proof. split; [|split; [|split]]; vm_compute; reflexivity. Qed.
Print Assumptions C94_next_hdu_refuted.
