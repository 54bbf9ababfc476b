(** The bytes of ASCII tables, and of the main part of binary tables, over short and failing reads (C93).
    [get_ascii] and [table_bytes] are the readers of C53; [dev_ascii_run] is a series of reads. *)

From Coq Require Import String List.
From Verif Require Import Base Utf8 Text Card Reader Header Xtension Bytes Fits ImageIt BinTable Gz DeviceGz DeviceAscii.
From Verif Require Import SpecUtf8 SpecCard SpecHeader SpecXt SpecFits SpecImage SpecBin SpecDeviceGz SpecDeviceAscii.
From Verif Require Import HeaderProofs BytesProofs FitsProofs4 ImageProofs BinProofs3 DeviceAsciiProofs Prop_Fits Prop_Bin.
Local Open Scope string_scope.
Local Open Scope list_scope.
Local Open Scope Z_scope.

(** However the reads are sized, short or failing, the bytes are those of the data unit, in order, and nothing is
    lost by a failure. *)
Theorem C93_ascii_bytes : forall m d f h f' t,
  octets d -> rd_data (f_reader f) = d -> 0 <= rd_pos (f_reader f) -> next m f = (IOk h, f') -> h_xt h = XtAscii t ->
  exists n tk, hdu_size m h = Ok n /\ get_ascii m f' t = Ok tk /\
    forall sizes k fs, Forall (fun k => 0 <= k) sizes -> 0 < k -> reads_unit (slice d (h_offset h) n) tk sizes k fs.
Proof. exact ascii_short. Qed.
Print Assumptions C93_ascii_bytes.

Theorem C93_table_bytes : forall m d f h f' t s,
  octets d -> rd_data (f_reader f) = d -> 0 <= rd_pos (f_reader f) -> next m f = (IOk h, f') ->
  h_xt h = XtBin t -> bt_naxis1 t * bt_naxis2 t < 2 ^ 64 -> get_table m f' t = Ok s ->
  forall sizes k fs, Forall (fun k => 0 <= k) sizes -> 0 < k ->
    reads_unit (slice d (h_offset h) (bt_naxis1 t * bt_naxis2 t)) (table_bytes s) sizes k fs.
Proof. exact table_short. Qed.
Print Assumptions C93_table_bytes.

(** And the next HDU is found as if nothing had been read. *)
Theorem C93_undisturbed : forall m d f h f' t tk n sizes fs,
  octets d -> len d < 2 ^ 63 -> rd_data (f_reader f) = d -> 0 <= rd_pos (f_reader f) ->
  next m f = (IOk h, f') -> h_xt h = XtAscii t -> hdu_size m h = Ok n ->
  h_offset h + in_blocks n < 2 ^ 63 ->
  get_ascii m f' t = Ok tk -> Forall (fun k => 0 <= k) sizes ->
  next m (give_back f' (tk_reader (snd (fst (dev_ascii_run tk sizes fs))))) = next m f'.
Proof. exact ascii_failing_undisturbed. Qed.
Print Assumptions C93_undisturbed.

(** The table of C53: reads of two bytes and of nine, over calls that fail twice and give single bytes. *)
Example C93_ex :
  let f := snd (run Checked 3 (opened (file_bytes ex_file))) in
  let t := mk_asciitable 3 1 0 [] [] 0 1 in
  match get_ascii Checked f t with
  | Ok tk => fst (fst (dev_ascii_run tk [2; 2; 9; 9; 9] [Fails; Short 1; Fails; Short 2; Fails])) = [None; Some [65]; None; Some [66; 67]; Some []] /\
             fst (fst (dev_ascii_run tk [9000; 1; 5] [Short 2])) = [Some [65; 66]; Some [67]; Some []]
  | _ => False
  end.
Proof. vm_compute. split; reflexivity. Qed.

Example C93_ex_table : forall m,
  exists t o s, found m ex_bit_array t o s /\
    fst (fst (dev_ascii_run (table_bytes s) [3; 2; 9; 4] [Short 2; Fails])) = [Some [0; 0]; None; Some [0; 3; 0; 0; 0; 0]; Some []].
Proof. ex_check. Qed.
