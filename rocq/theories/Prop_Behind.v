(** A FITS file behind other bytes of its source (C97).  [SpecBehind] holds the specification side. *)

From Coq Require Import String List Lia ZifyBool.
From Verif Require Import Base Utf8 Text Card Reader Header Xtension Bytes Fits ImageIt BinTable Direct.
From Verif Require Import SpecUtf8 SpecCard SpecHeader SpecXt SpecFits SpecImage SpecBin SpecDirect SpecBehind.
From Verif Require Import HeaderProofs FitsProofs4 BehindProofs BehindProofs2 BehindProofs3 BehindProofs4 BehindProofs5.
From Verif Require Import Prop_Fits Prop_Image Prop_Bin.
Local Open Scope string_scope.
Local Open Scope list_scope.
Local Open Scope Z_scope.

(** A source that stands behind any bytes, of any number, gives what the file gives alone, with every data unit that
    many bytes further on: all its HDUs and the item after them, be it the end or an error. *)
Theorem C97_run : forall junk m d n l f',
  octets d -> octets junk -> run m n (opened d) = (l, f') -> Forall (ends_below m (len junk)) l ->
  fst (run m (S n) (from_reader (mk_reader (junk ++ d) (len junk))))
  = map (item_further (len junk)) (fst (run m (S n) (opened d))).
Proof. exact run_behind. Qed.
Print Assumptions C97_run.

(** It is the same when the bytes were read through the [Fits] value before the first call of [next]. *)
Theorem C97_read : forall junk m d n l f' asks got f'',
  octets d -> octets junk ->
  Forall ask_ok asks -> fits_reads (opened (junk ++ d)) asks = (got, f'') -> concat got = junk ->
  run m n (opened d) = (l, f') -> Forall (ends_below m (len junk)) l ->
  fst (run m (S n) f'') = map (item_further (len junk)) (fst (run m (S n) (opened d))).
Proof. exact reads_behind. Qed.
Print Assumptions C97_read.

(** The images that are whole give the same pixels, in whatever order they are asked for, and the same raw bytes. *)
Theorem C97_image : forall junk m d n l h f' l' g' im,
  octets d -> octets junk -> len (junk ++ d) < 2 ^ 63 ->
  run m (S n) (opened d) = (l ++ [IOk h], f') -> Forall (ends_below m (len junk)) l ->
  run m (S n) (from_reader (mk_reader (junk ++ d) (len junk))) = (l', g') ->
  h_xt h = XtImage im -> size_fits im -> h_offset h + width (im_bitpix im) * pixel_count im <= len d ->
  exists id id', get_image m f' im = Ok id /\ get_image m g' im = Ok id' /\
    (forall ops, Forall op_ok ops -> fst (pixel_run m (id_pixels id') ops) = fst (pixel_run m (id_pixels id) ops)) /\
    image_raw_bytes m id' = image_raw_bytes m id.
Proof. exact image_behind. Qed.
Print Assumptions C97_image.

(** The binary tables that are whole give the same cells, those of the arrays in the heap included, through every
    history of reads and of seeks between arrays. *)
Theorem C97_table : forall junk m d n l h f' l' g' t lim,
  octets d -> octets junk -> len (junk ++ d) < 2 ^ 63 ->
  run m (S n) (opened d) = (l ++ [IOk h], f') -> Forall (ends_below m (len junk)) l ->
  run m (S n) (from_reader (mk_reader (junk ++ d) (len junk))) = (l', g') ->
  h_xt h = XtBin t -> table_inside d t (h_offset h) -> lim <= len d ->
  columns_readable d lim t (h_offset h) true (all_columns t) -> bt_tforms t <> [] ->
  exists s s', get_table m f' t = Ok s /\ get_table m g' t = Ok s' /\
    let from := slots_from d t (h_offset h) true (all_columns t) in
    forall ops, proper t from (from 0) ops -> fst (table_run m s' ops) = fst (table_run m s ops).
Proof. exact table_behind. Qed.
Print Assumptions C97_table.

(** And the same rows.  [fuel] bounds the cells of a row in the model. *)
Theorem C97_rows : forall junk m d n l h f' l' g' t lim,
  octets d -> octets junk -> len (junk ++ d) < 2 ^ 63 ->
  run m (S n) (opened d) = (l ++ [IOk h], f') -> Forall (ends_below m (len junk)) l ->
  run m (S n) (from_reader (mk_reader (junk ++ d) (len junk))) = (l', g') ->
  h_xt h = XtBin t -> table_inside d t (h_offset h) -> lim <= len d ->
  columns_readable d lim t (h_offset h) true (all_columns t) -> bt_tforms t <> [] ->
  exists s s', get_table m f' t = Ok s /\ get_table m g' t = Ok s' /\
    forall fuel k, (1 <= fuel)%nat ->
      (forall i, In i (rows_from t 0) ->
         (List.length (row_slots d t (h_offset h) true (all_columns t) i) <= fuel)%nat) ->
      row_run m fuel (row_iter s') k = row_run m fuel (row_iter s) k.
Proof. exact rows_behind. Qed.
Print Assumptions C97_rows.

(** The ASCII tables give the same bytes to every series of reads, whole or not. *)
Theorem C97_ascii : forall junk m d n l h f' l' g' t,
  octets d -> octets junk ->
  run m (S n) (opened d) = (l ++ [IOk h], f') -> Forall (ends_below m (len junk)) l ->
  run m (S n) (from_reader (mk_reader (junk ++ d) (len junk))) = (l', g') ->
  h_xt h = XtAscii t ->
  exists tk tk', get_ascii m f' t = Ok tk /\ get_ascii m g' t = Ok tk' /\
    forall sizes, fst (ascii_run tk' sizes) = fst (ascii_run tk sizes).
Proof. exact ascii_behind. Qed.
Print Assumptions C97_ascii.

(** The example file behind seven bytes, whole and cut within the header of its second HDU. *)
Definition ex_junk : list Z := [80; 75; 3; 4; 10; 0; 255].
Definition ex_behind (d : list Z) : fits := from_reader (mk_reader (ex_junk ++ d) 7).
Example C97_case : forall m,
  map summary (fst (run m 4 (ex_behind (file_bytes ex_file))))
  = [Some (HPrimary, 2887, Ok 5); Some (HImage, 8647, Ok 12); Some (HAsciiTable, 14407, Ok 3); None] /\
  fst (pixel_run m (ex_pixels (snd (run m 2 (ex_behind (file_bytes ex_file)))) (mk_image BI16 [2; 3]))
         [PNext; PNext; PRead 0]) = [RValue 1; RValue 2; RValue 1] /\
  fst (fits_reads (opened (ex_junk ++ file_bytes ex_file)) [(4, 9); (9, 3)]) = [[80; 75; 3; 4]; [10; 0; 255]] /\
  nth 1 (fst (run m 2 (ex_behind (firstn 3000 (file_bytes ex_file))))) INone
  = nth 1 (fst (run m 2 (opened (firstn 3000 (file_bytes ex_file))))) INone.
Proof. intros []; vm_compute; repeat split; reflexivity. Qed.
Definition ends_belowb (m : mode) (j : Z) (i : item) : bool :=
  match i with
  | IOk h => match hdu_size m h with Ok n => h_offset h + in_blocks n + j <? 2 ^ 63 | _ => false end
  | _ => false
  end.
Lemma ends_belowb_ok m j i : ends_belowb m j i = true -> ends_below m j i.
Proof.
  destruct i as [|h|e|]; try discriminate. cbn. destruct (hdu_size m h) as [n|e|] eqn:H; try discriminate.
  intro L. exists h, n. repeat split; auto. lia.
Qed.
Example C97_case_hyps : forall m,
  octetsb (file_bytes ex_file) = true /\ octetsb ex_junk = true /\
  forallb (ends_belowb m 7) (fst (run m 3 (opened (file_bytes ex_file)))) = true /\
  Forall ask_ok [(4, 9); (9, 3)].
Proof. intros []; vm_compute; repeat split; try reflexivity; repeat constructor; discriminate. Qed.

(** The ASCII table of the example file behind the same bytes, whole and with its last byte missing. *)
Example C97_ascii_case : forall m,
  let bytes d := match run m 3 (ex_behind d) with
                 | ([_; _; IOk h], g) =>
                   match h_xt h with
                   | XtAscii t => match get_ascii m g t with Ok tk => fst (ascii_run tk [2; 5; 1]) | _ => [] end
                   | _ => []
                   end
                 | _ => []
                 end in
  bytes (file_bytes ex_file) = [[65; 66]; [67]; []] /\
  bytes (firstn (Z.to_nat 14402) (file_bytes ex_file)) = [[65; 66]; []; []].
Proof. intros []; vm_compute; split; reflexivity. Qed.

(** A table with arrays behind the same bytes; [C34_ex] shows the other hypotheses of it. *)
Example C97_table_case : forall m,
  let ops := [TNext; TNext; TNext; TSeek 1; TNext; TNext; TNext; TSeek 0; TNext; TSeek 2; TNext] in
  match run m 2 (ex_behind (ex_vla 1)) with
  | ([_; IOk h], g) =>
    match h_xt h with
    | XtBin t => match get_table m g t with
                 | Ok s => fst (table_run m s ops)
                   = [TValue (DVal TyI [9] 0 0); TValue (DVal TyJ [6] 1 0); TValue (DVal TyJ [-1] 1 1); TDone;
                      TValue (DVal TyI [8] 0 0); TValue (DVal TyJ [5] 1 0); TEnd; TDone; TValue (DVal TyI [9] 0 0);
                      TError; TValue (DVal TyJ [6] 1 0)] /\
                     row_run m 3 (row_iter s) 3
                   = [RowOf [DVal TyI [9] 0 0; DVal TyJ [6] 1 0; DVal TyJ [-1] 1 1];
                      RowOf [DVal TyI [8] 0 0; DVal TyJ [5] 1 0]; RowEnd]
                 | _ => False
                 end
    | _ => False
    end
  | _ => False
  end /\ forallb (ends_belowb m 7) (fst (run m 1 (opened (ex_vla 1)))) = true /\ octetsb (ex_vla 1) = true.
Proof. intros []; vm_compute; repeat split; reflexivity. Qed.

(** "The bytes before a file are passed over" is false: without the position set behind them the file is not
    found, even when they fill a block. *)
Theorem C97_unset_refuted : forall m,
  match nth 0 (fst (run m 1 (opened (file_bytes ex_file)))) INone with IOk _ => True | _ => False end /\
  match nth 0 (fst (run m 1 (opened (repeat 0 2880 ++ file_bytes ex_file)))) INone with IErr _ => True | _ => False end.
Proof. intros []; split; vm_compute; exact Logic.I. Qed.
Print Assumptions C97_unset_refuted.

(** "All images behind other bytes are read as those of the file alone" is false when the pixels are missing: after a
    read of one of them, going back to the first gives an error in the file alone, and as a pixel a byte that lies
    before the file when there is one. *)
Definition ex_missing : list Z :=
  header_bytes (ex_source ["SIMPLE  = T"; "BITPIX  = 8"; "NAXIS   = 1"; "NAXIS1  = 3000"] []).
Theorem C97_missing_refuted : forall m,
  let im := mk_image BU8 [3000] in
  let before := repeat 0 29 ++ [77] ++ repeat 0 70 in
  let asked f := fst (pixel_run m (ex_pixels (snd (run m 1 f)) im) [PRead 2950; PRead 0]) in
  summary (nth 0 (fst (run m 1 (opened ex_missing))) INone) = Some (HPrimary, 2880, Ok 3000) /\
  asked (opened ex_missing) = [RError; RError] /\
  asked (from_reader (mk_reader (before ++ ex_missing) 100)) = [RError; RValue 77].
Proof. intros []; vm_compute; repeat split; reflexivity. Qed.
Print Assumptions C97_missing_refuted.
