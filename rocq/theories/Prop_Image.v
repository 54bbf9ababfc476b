(** Properties of image and ASCII table data (C25-C29, C53).  [get_image] and [get_ascii] are the
    models of [Fits::get_data], [pixel_run] a series of [next] and [read_value] calls on the pixel
    iterator, [ascii_run] a series of reads; [SpecImage] holds the specification side. *)

From Coq Require Import String List.
From Verif Require Import Base Utf8 Text Card Reader Header Xtension Bytes Fits ImageIt.
From Verif Require Import SpecUtf8 SpecCard SpecHeader SpecXt SpecFits SpecImage.
From Verif Require Import HeaderProofs BytesProofs FitsProofs4 ImageProofs Prop_Fits.
Local Open Scope string_scope.
Local Open Scope list_scope.
Local Open Scope Z_scope.

(** ** C25: big-endian decoding *)

Theorem C25_decode_encode : forall b v, in_range b v -> decode b (encode b v) = v.
Proof. exact decode_encode. Qed.
Print Assumptions C25_decode_encode.

(** Every byte string of the right length decodes to a value of the type, and only to that one. *)
Theorem C25_encode_decode : forall b bs,
  octets bs -> len bs = width b -> in_range b (decode b bs) /\ encode b (decode b bs) = bs.
Proof. intros b bs H L. split; [exact (decode_range b bs H L)|exact (encode_decode b bs H L)]. Qed.
Print Assumptions C25_encode_decode.

Example C25_ex :
  decode BI16 [255; 254] = -2 /\ decode BU8 [255] = 255 /\ decode BI32 [0; 1; 2; 3] = 66051 /\
  decode BI64 [128; 0; 0; 0; 0; 0; 0; 0] = - 2 ^ 63 /\ decode BF32 [63; 128; 0; 0] = 1065353216 /\
  in_range BI16 (-2) /\ encode BI16 (-2) = [255; 254].
Proof. vm_compute. repeat split; discriminate. Qed.

(** ** C26: pixel iteration *)

(** The iterator over the image just found: the pixels completely present, in order, then the end
    for ever.  [stored] fixes the values through their big-endian encoding. *)
Theorem C26_pixels : forall m d f h f' im,
  octets d -> rd_data (f_reader f) = d -> 0 <= rd_pos (f_reader f) -> next m f = (IOk h, f') ->
  h_xt h = XtImage im -> size_fits im ->
  exists id values, get_image m f' im = Ok id /\
    len values = Z.min (pixel_count im) ((len d - h_offset h) / width (im_bitpix im)) /\
    stored d (h_offset h) (im_bitpix im) values /\
    forall n, fst (pixel_run m (id_pixels id) (repeat PNext n))
            = firstn n (map RValue values ++ repeat REnd n).
Proof. exact pixels_sequential. Qed.
Print Assumptions C26_pixels.

(** ** C27: random access *)

(** With the data unit present in full, every history of calls behaves like a cursor over the
    pixel list. *)
Theorem C27_random_access : forall m d f h f' im,
  octets d -> len d < 2 ^ 63 -> rd_data (f_reader f) = d -> 0 <= rd_pos (f_reader f) ->
  next m f = (IOk h, f') -> h_xt h = XtImage im -> size_fits im ->
  h_offset h + width (im_bitpix im) * pixel_count im <= len d ->
  exists id values, get_image m f' im = Ok id /\
    len values = pixel_count im /\ stored d (h_offset h) (im_bitpix im) values /\
    forall ops, Forall op_ok ops ->
      fst (pixel_run m (id_pixels id) ops) = pixel_spec values 0 ops /\
      exists c, 0 <= c <= pixel_count im /\
        it_reader (snd (pixel_run m (id_pixels id) ops))
        = mk_reader d (h_offset h + width (im_bitpix im) * c).
Proof. exact pixels_random. Qed.
Print Assumptions C27_random_access.

(** The image of the second HDU of the example file, 2 x 3 pixels of 16 bits. *)
Definition ex_second : fits := snd (run Checked 2 (opened (file_bytes ex_file))).
Definition ex_pixels (f : fits) (im : image) : it :=
  match get_image Checked f im with Ok id => id_pixels id | _ => it_new BU8 (f_reader f) 0 end.

Example C27_ex :
  let im := mk_image BI16 [2; 3] in
  map summary (fst (run Checked 2 (opened (file_bytes ex_file))))
    = [Some (HPrimary, 2880, Ok 5); Some (HImage, 8640, Ok 12)] /\
  option_map h_xt (nth_error (map (fun i => match i with IOk h => h | _ => mk_hdu HPrimary [] [] (XtImage im) 0 end)
      (fst (run Checked 2 (opened (file_bytes ex_file))))) 1) = Some (XtImage im) /\
  fst (pixel_run Checked (ex_pixels ex_second im)
         [PNext; PNext; PRead 4; PNext; PNext; PRead 6; PRead 0; PNext])
  = [RValue 1; RValue 2; RValue 5; RValue 6; REnd; RError; RValue 1; RValue 2] /\
  size_fits im.
Proof.
  split; [vm_compute; reflexivity|]. split; [vm_compute; reflexivity|]. split; [vm_compute; reflexivity|].
  split; [|vm_compute; reflexivity].
  intros l r E. destruct l as [|a [|b [|? ?]]]; inversion E; subst; vm_compute; reflexivity.
Qed.

(** A file cut in the middle of its second pixel: after the failed read, [read_value(0)] returns
    bytes from before the data unit. *)
Definition ex_cut : list Z :=
  header_bytes (ex_source ["SIMPLE  = T"; "BITPIX  = 16"; "NAXIS   = 1"; "NAXIS1  = 3"] []) ++ [0; 1; 0].

Theorem C27_truncated_refuted : forall m, exists h f' im id values,
  next m (opened ex_cut) = (IOk h, f') /\ h_xt h = XtImage im /\ get_image m f' im = Ok id /\
  stored ex_cut (h_offset h) (im_bitpix im) values /\ nth_error values 0 = Some 1 /\
  fst (pixel_run m (id_pixels id) [PNext; PNext; PRead 0]) = [RValue 1; REnd; RValue 8192].
Proof.
  intro m.
  destruct (item_ok (next m (opened ex_cut)) (fun h => h_xt h = XtImage (mk_image BI16 [3]) /\ h_offset h = 2880)
              (mk_fits false 2880 6 false (mk_reader ex_cut 2880))) as (h & N & X & HO).
  - destruct m; vm_compute; split; reflexivity.
  - destruct m; vm_compute; reflexivity.
  - exists h. eexists. exists (mk_image BI16 [3]).
  eexists. exists [1]. split; [exact N|]. split; [exact X|].
  split; [destruct m; vm_compute; reflexivity|]. rewrite HO.
  split; [|split; [reflexivity|destruct m; vm_compute; reflexivity]].
  split; [discriminate|]. split; [vm_compute; discriminate|]. split; [|vm_compute; reflexivity].
  repeat constructor; vm_compute; discriminate.
Qed.
Print Assumptions C27_truncated_refuted.

(** The same file meets the hypotheses of C26. *)
Example C26_ex_cut : forall n, (n <= 5)%nat ->
  fst (pixel_run Checked (ex_pixels (snd (next Checked (opened ex_cut))) (mk_image BI16 [3])) (repeat PNext n))
  = firstn n [RValue 1; REnd; REnd; REnd; REnd].
Proof. do 6 (destruct n as [|n]; [intros _; vm_compute; reflexivity|]). intro H. exfalso. do 5 apply le_S_n in H. inversion H. Qed.

(** ** C28: raw bytes *)

Theorem C28_image : forall m d f h f' im,
  octets d -> len d < 2 ^ 64 -> rd_data (f_reader f) = d -> 0 <= rd_pos (f_reader f) ->
  next m f = (IOk h, f') -> h_xt h = XtImage im ->
  exists id n, get_image m f' im = Ok id /\ hdu_size m h = Ok n /\
    image_raw_bytes m id = if h_offset h + n <=? len d then Ok (slice d (h_offset h) n) else Panic.
Proof. exact raw_bytes_image. Qed.
Print Assumptions C28_image.

(** In a well-formed file these are the data bytes, without header and padding. *)
Theorem C28_image_file : forall m d before k s after f h f' im,
  octets d -> len d < 2 ^ 64 -> rd_data (f_reader f) = d -> 0 <= rd_pos (f_reader f) ->
  d = before ++ hdu_bytes s ++ after -> next m f = (IOk h, f') -> read_from m k (len before) s h ->
  h_xt h = XtImage im ->
  exists id, get_image m f' im = Ok id /\ image_raw_bytes m id = Ok (s_data s).
Proof. exact raw_bytes_file. Qed.
Print Assumptions C28_image_file.

Example C28_ex :
  match get_image Checked ex_second (mk_image BI16 [2; 3]) with
  | Ok id => image_raw_bytes Checked id = Ok [0; 1; 0; 2; 0; 3; 0; 4; 0; 5; 0; 6]
  | _ => False
  end /\
  match get_image Wrapping (snd (next Wrapping (opened ex_cut))) (mk_image BI16 [3]) with
  | Ok id => image_raw_bytes Wrapping id = Panic
  | _ => False
  end.
Proof. split; vm_compute; reflexivity. Qed.

(** ** C29: data reads do not disturb HDU iteration *)

(** The next call gives the same result and the same state whatever was read before; in a checked
    build the data unit must be there in full. *)
Theorem C29_images : forall m d f h f' im id n ops,
  octets d -> len d < 2 ^ 63 -> rd_data (f_reader f) = d -> 0 <= rd_pos (f_reader f) ->
  next m f = (IOk h, f') -> h_xt h = XtImage im -> hdu_size m h = Ok n ->
  h_offset h + in_blocks n < 2 ^ 63 -> (m = Checked -> h_offset h + n <= len d) ->
  get_image m f' im = Ok id -> Forall op_ok ops ->
  next m (give_back f' (it_reader (snd (pixel_run m (id_pixels id) ops)))) = next m f'.
Proof. exact images_undisturbed. Qed.
Print Assumptions C29_images.

Theorem C29_ascii_tables : forall m d f h f' t tk n sizes,
  octets d -> len d < 2 ^ 63 -> rd_data (f_reader f) = d -> 0 <= rd_pos (f_reader f) ->
  next m f = (IOk h, f') -> h_xt h = XtAscii t -> hdu_size m h = Ok n ->
  h_offset h + in_blocks n < 2 ^ 63 ->
  get_ascii m f' t = Ok tk -> Forall (fun k => 0 <= k) sizes ->
  next m (give_back f' (tk_reader (snd (ascii_run tk sizes)))) = next m f'.
Proof. exact ascii_undisturbed. Qed.
Print Assumptions C29_ascii_tables.

(** A second [get_data] starts at the pixel the first one had reached, not at the data unit. *)
Theorem C29_second_get_data : forall m d f h f' im id ops,
  octets d -> len d < 2 ^ 63 -> rd_data (f_reader f) = d -> 0 <= rd_pos (f_reader f) ->
  next m f = (IOk h, f') -> h_xt h = XtImage im -> size_fits im ->
  h_offset h + width (im_bitpix im) * pixel_count im <= len d ->
  get_image m f' im = Ok id -> Forall op_ok ops ->
  exists id2 c, get_image m (give_back f' (it_reader (snd (pixel_run m (id_pixels id) ops)))) im = Ok id2 /\
    0 <= c <= pixel_count im /\
    it_reader (id_pixels id2) = mk_reader d (h_offset h + width (im_bitpix im) * c).
Proof. exact second_image. Qed.
Print Assumptions C29_second_get_data.

(** So reading all pixels through a second [get_data] can leave the data unit, and the next call
    of a checked build panics. *)
Definition ex_after_two (m : mode) : fits :=
  let im := mk_image BU8 [5] in
  let f := snd (next m (opened (file_bytes ex_file))) in
  match get_image m f im with
  | Ok id =>
    let f2 := give_back f (it_reader (snd (pixel_run m (id_pixels id) [PNext; PNext; PNext]))) in
    match get_image m f2 im with
    | Ok id2 => give_back f2 (it_reader (snd (pixel_run m (id_pixels id2) (repeat PNext 5))))
    | _ => f
    end
  | _ => f
  end.
Theorem C29_two_readers_refuted :
  summary (fst (next Checked (snd (next Checked (opened (file_bytes ex_file)))))) = Some (HImage, 8640, Ok 12) /\
  fst (next Checked (ex_after_two Checked)) = IPanic /\
  summary (fst (next Wrapping (ex_after_two Wrapping))) = Some (HImage, 8640, Ok 12).
Proof. split; [|split]; vm_compute; reflexivity. Qed.
Print Assumptions C29_two_readers_refuted.

(** ** C53: ASCII table bytes *)

(** However the reads are sized, the bytes are those of the data unit, in order; a read that gives
    nothing means that all of them (or all that the file holds) were given before. *)
Theorem C53_ascii_bytes : forall m d f h f' t,
  octets d -> rd_data (f_reader f) = d -> 0 <= rd_pos (f_reader f) -> next m f = (IOk h, f') ->
  h_xt h = XtAscii t ->
  exists n tk, hdu_size m h = Ok n /\ get_ascii m f' t = Ok tk /\
    forall sizes k, Forall (fun k => 0 <= k) sizes -> 0 < k ->
      let unit := slice d (h_offset h) n in
      let got := List.concat (fst (ascii_run tk sizes)) in
      let more := fst (buf_read (snd (ascii_run tk sizes)) k) in
      got ++ more = firstn (List.length (got ++ more)) unit /\ len more <= k /\
      (more = [] <-> got = unit).
Proof. exact ascii_bytes. Qed.
Print Assumptions C53_ascii_bytes.

Example C53_ex :
  let f := snd (run Checked 3 (opened (file_bytes ex_file))) in
  let t := mk_asciitable 3 1 0 [] [] 0 1 in
  match get_ascii Checked f t with
  | Ok tk => fst (ascii_run tk [2; 0; 9000; 5]) = [[65; 66]; []; [67]; []] /\
             fst (ascii_run tk [9000; 5]) = [[65; 66; 67]; []]
  | _ => False
  end.
Proof. vm_compute. split; reflexivity. Qed.
