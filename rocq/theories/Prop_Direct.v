(** Reads through the [Fits] value itself (C95).  [fits_reads] is a series of calls of [Read::read] on it;
    [SpecDirect] holds the specification side. *)

From Coq Require Import String List Lia ZifyBool.
From Verif Require Import Base Utf8 Text Card Reader Header Xtension Bytes Fits ImageIt Direct.
From Verif Require Import SpecUtf8 SpecCard SpecHeader SpecXt SpecFits SpecImage SpecDirect.
From Verif Require Import HeaderProofs FitsProofs4 ImageProofs DirectProofs.
From Verif Require Import Prop_Fits Prop_Image.
Local Open Scope string_scope.
Local Open Scope list_scope.
Local Open Scope Z_scope.

(** After an HDU was found: the bytes of its data unit on, in order and without a gap, however the reads are sized
    and however short those of the source are; an empty read means that the file was given to its end. *)
Theorem C95_bytes : forall m d f h f' asks got f'',
  octets d -> rd_data (f_reader f) = d -> 0 <= rd_pos (f_reader f) -> next m f = (IOk h, f') ->
  Forall ask_ok asks -> fits_reads f' asks = (got, f'') ->
  concat got = slice d (h_offset h) (len (concat got)) /\
  Forall2 (fun a x => len x <= fst a /\ len x <= snd a) asks got /\
  position_data_unit f'' = h_offset h /\
  forall n k, 1 <= n -> 1 <= k ->
    (fst (fits_read f'' n k) = [] <-> concat got = skipn (Z.to_nat (h_offset h)) d).
Proof. exact direct_bytes. Qed.
Print Assumptions C95_bytes.

(** The next HDU is found as if nothing had been read, as long as no more than the data unit was; behind it, a
    release build still finds it and a checked build panics. *)
Theorem C95_next_hdu : forall m d f h f' asks got f'' n,
  octets d -> len d < 2 ^ 63 -> rd_data (f_reader f) = d -> 0 <= rd_pos (f_reader f) -> next m f = (IOk h, f') ->
  Forall ask_ok asks -> fits_reads f' asks = (got, f'') ->
  hdu_size m h = Ok n -> h_offset h + in_blocks n < 2 ^ 63 ->
  (m = Wrapping \/ len (concat got) <= n -> next m f'' = next m f') /\
  (m = Checked -> n < len (concat got) -> fst (next m f'') = IPanic).
Proof. exact direct_next. Qed.
Print Assumptions C95_next_hdu.

(** [get_data] afterwards starts at the first byte not read, not at the data unit. *)
Theorem C95_image : forall m d f h f' asks got f'' im,
  octets d -> len d < 2 ^ 63 -> rd_data (f_reader f) = d -> 0 <= rd_pos (f_reader f) -> next m f = (IOk h, f') ->
  Forall ask_ok asks -> fits_reads f' asks = (got, f'') ->
  h_xt h = XtImage im -> size_fits im ->
  h_offset h + len (concat got) + width (im_bitpix im) * pixel_count im <= len d ->
  exists id values, get_image m f'' im = Ok id /\ len values = pixel_count im /\
    stored d (h_offset h + len (concat got)) (im_bitpix im) values /\
    forall ops, Forall op_ok ops -> fst (pixel_run m (id_pixels id) ops) = pixel_spec values 0 ops.
Proof. exact direct_image. Qed.
Print Assumptions C95_image.

(** The second HDU of the example file, an image of 1 to 6 in 12 bytes. *)
Definition ex_reads (m : mode) (asks : list (Z * Z)) := fits_reads (snd (run m 2 (opened (file_bytes ex_file)))) asks.
Example C95_case : forall m,
  fst (ex_reads m [(3, 9); (5, 2); (4, 4)]) = [[0; 1; 0]; [2; 0]; [3; 0; 4; 0]] /\
  position_data_unit (snd (ex_reads m [(3, 9); (5, 2)])) = 8640 /\
  summary (fst (next m (snd (ex_reads m [(12, 12)])))) = Some (HAsciiTable, 14400, Ok 3) /\
  fst (pixel_run m (ex_pixels (snd (ex_reads m [(4, 4)])) (mk_image BI16 [2; 3])) [PNext; PNext; PRead 0])
  = [RValue 3; RValue 4; RValue 3].
Proof. intros []; vm_compute; repeat split; reflexivity. Qed.
Example C95_case_hyps :
  octetsb (file_bytes ex_file) = true /\ (len (file_bytes ex_file) <? 2 ^ 63) = true /\
  (8640 + in_blocks 12 <? 2 ^ 63) = true /\ Forall ask_ok [(3, 9); (5, 2); (4, 4)].
Proof. vm_compute. repeat split; try reflexivity. repeat constructor; discriminate. Qed.

(** "Whatever is read through the [Fits] value, the next HDU is found" is false of checked builds: one byte more than
    the data unit, in its padding, is enough. *)
Theorem C95_padding_refuted :
  concat (fst (ex_reads Checked [(13, 13)])) = [0; 1; 0; 2; 0; 3; 0; 4; 0; 5; 0; 6; 0] /\
  fst (next Checked (snd (ex_reads Checked [(13, 13)]))) = IPanic /\
  summary (fst (next Wrapping (snd (ex_reads Wrapping [(13, 13)])))) = Some (HAsciiTable, 14400, Ok 3).
Proof. split; [|split]; vm_compute; reflexivity. Qed.
Print Assumptions C95_padding_refuted.
