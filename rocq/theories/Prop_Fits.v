(** Properties of HDU iteration (C20-C24).  [next] is the model of [Fits::next], [opened d] the
    iterator over the bytes [d], [yields] a series of calls with data reads in between;
    [SpecFits] holds the specification side. *)

From Coq Require Import String List.
From Verif Require Import Base Utf8 Text Card Reader Header Xtension Fits.
From Verif Require Import SpecUtf8 SpecCard SpecHeader SpecXt SpecFits.
From Verif Require Import HeaderProofs FitsProofs FitsProofs2 FitsProofs3 FitsProofs4.
Local Open Scope string_scope.
Local Open Scope list_scope.
Local Open Scope Z_scope.

(** Files used in the examples: header lines, then data, both padded to 2880 bytes. *)
Definition pad_to_block (l : list Z) (c : Z) : list Z :=
  repeat c (Z.to_nat ((2880 - len l mod 2880) mod 2880)).
Definition ex_source (lines : list string) (data : list Z) : source :=
  let recs := map (fun s => padded 80 (chars s)) lines in
  let last := padded 80 (chars "END") in
  mk_source recs last (pad_to_block (List.concat recs ++ last) 32) data (pad_to_block data 0).
Definition ex_primary : source :=
  ex_source ["SIMPLE  = T"; "BITPIX  = 8"; "NAXIS   = 1"; "NAXIS1  = 5"] [1; 2; 3; 4; 5].
Definition ex_image : source :=
  ex_source ["XTENSION= 'IMAGE   '"; "BITPIX  = 16"; "NAXIS   = 2"; "NAXIS1  = 2"; "NAXIS2  = 3"]
            [0; 1; 0; 2; 0; 3; 0; 4; 0; 5; 0; 6].
Definition ex_ascii : source :=
  ex_source ["XTENSION= 'TABLE   '"; "BITPIX  = 8"; "NAXIS   = 2"; "NAXIS1  = 3"; "NAXIS2  = 1";
             "PCOUNT  = 0"; "GCOUNT  = 1"; "TFIELDS = 0"] [65; 66; 67].
Definition ex_file : list (hkind * source) :=
  [(HPrimary, ex_primary); (HImage, ex_image); (HAsciiTable, ex_ascii)].

Definition summary (i : item) : option (hkind * Z * res Z) :=
  match i with IOk h => Some (h_kind h, h_offset h, hdu_size Checked h) | _ => None end.

(** ** C20: iteration enumerates the file *)

(** Whatever the caller does with the data in between, the calls give the HDUs in order, then
    [None]: every series of calls gives a beginning of that list, and the whole list is reached. *)
Theorem C20_enumerates : forall m d hs,
  octets d -> file_kinds hs -> Forall (accepted m) hs -> d = file_bytes hs -> len d < 2 ^ 63 ->
  exists full, items_for m 0 hs full /\
    (exists f', yields m (opened d) (full ++ [INone]) f') /\
    (forall l f2, yields m (opened d) l f2 -> (List.length l <= List.length hs + 1)%nat ->
       l = firstn (List.length l) (full ++ [INone])).
Proof. exact whole_file_items. Qed.
Print Assumptions C20_enumerates.

(** A file meeting the hypotheses, and what the model does with it. *)
Example C20_ex_file :
  octets (file_bytes ex_file) /\ file_kinds ex_file /\ Forall (accepted Checked) ex_file /\
  len (file_bytes ex_file) = 17280.
Proof.
  split; [apply octetsb_ok; vm_compute; reflexivity|].
  split; [split; [reflexivity|]; repeat constructor; discriminate|].
  split; [|vm_compute; reflexivity].
  constructor; [|constructor; [|constructor; [|constructor]]].
  - eapply source_accepted; try lazymatch goal with |- declares _ _ _ => idtac | _ => vm_compute; reflexivity end.
    exists BU8, [5]. split; [eexists; vm_compute; reflexivity|].
    split; [eexists; vm_compute; reflexivity|].
    split; [split; [eexists; vm_compute; reflexivity|split; [split; [discriminate|reflexivity]|exact I]]|].
    split; [|vm_compute; reflexivity].
    intros l r E. destruct l as [|a [|? ?]]; inversion E; subst; vm_compute; reflexivity.
  - eapply source_accepted; try lazymatch goal with |- declares _ _ _ => idtac | _ => vm_compute; reflexivity end.
    exists BI16, [2; 3]. split; [eexists; vm_compute; reflexivity|].
    split; [eexists; vm_compute; reflexivity|].
    split; [split; [eexists; vm_compute; reflexivity|split; [split; [discriminate|reflexivity]|]];
            split; [eexists; vm_compute; reflexivity|split; [split; [discriminate|reflexivity]|exact I]]|].
    split; [|vm_compute; reflexivity].
    intros l r E. destruct l as [|a [|b [|? ?]]]; inversion E; subst; vm_compute; reflexivity.
  - eapply source_accepted; try lazymatch goal with |- declares _ _ _ => idtac | _ => vm_compute; reflexivity end.
    exists 3, 1. split; [eexists; vm_compute; reflexivity|].
    split; [eexists; vm_compute; reflexivity|]. vm_compute; reflexivity.
Qed.

Example C20_ex :
  map summary (fst (run Wrapping 5 (opened (file_bytes ex_file)))) =
    [Some (HPrimary, 2880, Ok 5); Some (HImage, 8640, Ok 12); Some (HAsciiTable, 14400, Ok 3); None; None] /\
  map summary (fst (run Checked 3 (opened (file_bytes ex_file)))) =
    [Some (HPrimary, 2880, Ok 5); Some (HImage, 8640, Ok 12); Some (HAsciiTable, 14400, Ok 3)].
Proof. split; vm_compute; reflexivity. Qed.

(** ** C21: errors and the end are final *)

Theorem C21_error_final : forall m f e f',
  next m f = (IErr e, f') ->
  forall l f2, yields m f' l f2 -> Forall (fun i => i = INone) l.
Proof. exact error_final. Qed.
Print Assumptions C21_error_final.

Theorem C21_end_final_release : forall f f',
  octets (rd_data (f_reader f)) -> 0 <= rd_pos (f_reader f) <= len (rd_data (f_reader f)) ->
  len (rd_data (f_reader f)) < 2 ^ 63 -> 0 <= f_pos_du f ->
  next Wrapping f = (INone, f') -> forall n, run Wrapping n f' = (repeat INone n, f').
Proof. exact end_final_release. Qed.
Print Assumptions C21_end_final_release.

(** In a checked build the call after the end is [None] again exactly when no byte follows the
    last data unit; otherwise it panics. *)
Theorem C21_end_checked : forall f f',
  octets (rd_data (f_reader f)) -> 0 <= rd_pos (f_reader f) <= len (rd_data (f_reader f)) ->
  len (rd_data (f_reader f)) < 2 ^ 63 -> 0 <= f_pos_du f ->
  next Checked f = (INone, f') -> f_error f = false ->
  (len (rd_data (f_reader f)) <= f_pos_du f + f_num_du f ->
     forall n, run Checked n f' = (repeat INone n, f')) /\
  (f_pos_du f + f_num_du f < len (rd_data (f_reader f)) -> fst (next Checked f') = IPanic).
Proof. exact end_checked. Qed.
Print Assumptions C21_end_checked.

(** The well-formed file above: [None] and then a panic. *)
Theorem C21_end_final_checked_refuted : exists d,
  octets d /\ (exists hs, file_kinds hs /\ Forall (accepted Checked) hs /\ d = file_bytes hs) /\
  exists f, next Checked (snd (run Checked 3 (opened d))) = (INone, f) /\ fst (next Checked f) = IPanic.
Proof.
  exists (file_bytes ex_file). destruct C20_ex_file as (H1 & H2 & H3 & _).
  split; [exact H1|]. split; [exists ex_file; auto|].
  assert (N: fst (next Checked (snd (run Checked 3 (opened (file_bytes ex_file))))) = INone)
    by (vm_compute; reflexivity).
  assert (P: fst (next Checked (snd (next Checked (snd (run Checked 3 (opened (file_bytes ex_file))))))) = IPanic)
    by (vm_compute; reflexivity).
  destruct (next Checked (snd (run Checked 3 (opened (file_bytes ex_file))))) as (i, f).
  exists f. simpl in N, P. subst i. auto.
Qed.
Print Assumptions C21_end_final_checked_refuted.

Example C21_ex :
  map (fun i => match i with IErr e => Some e | _ => None end)
      (fst (run Checked 3 (opened (chars "SIMPLE  =")))) = [Some EEof; None; None].
Proof. vm_compute. reflexivity. Qed.

(** ** C22: truncated files and trailing bytes *)

(** The file may end anywhere behind the last header, or have up to 79 extra bytes. *)
Theorem C22_cut_data : forall m d init k s rest,
  octets d -> file_kinds (init ++ [(k, s)]) -> Forall (accepted m) (init ++ [(k, s)]) ->
  d = file_bytes init ++ header_bytes s ++ rest ->
  len rest < in_blocks (len (s_data s)) + 80 ->
  len (file_bytes (init ++ [(k, s)])) < 2 ^ 63 ->
  exists full, items_for m 0 (init ++ [(k, s)]) full /\
    (exists f', yields m (opened d) (full ++ [INone]) f') /\
    (forall l f2, yields m (opened d) l f2 ->
       (List.length l <= List.length (init ++ [(k, s)]) + 1)%nat ->
       l = firstn (List.length l) (full ++ [INone])).
Proof. exact file_items. Qed.
Print Assumptions C22_cut_data.

(** Cut inside an extension header, at least 80 bytes of which are there: the HDUs before it are
    returned, then an end-of-file error, or another error when only the padding is cut. *)
Theorem C22_cut_extension_header : forall m d hs k s n,
  octets d -> file_kinds hs -> Forall (accepted m) hs -> k <> HPrimary -> accepted m (k, s) ->
  d = file_bytes hs ++ firstn n (header_bytes s) ->
  (80 <= n)%nat -> (n < List.length (header_bytes s))%nat -> len d < 2 ^ 63 ->
  let e := if Z.of_nat n <? 80 * (len (s_records s) + 1) then EEof else EStatic in
  exists full, items_for m 0 hs full /\
    (exists f', yields m (opened d) (full ++ [IErr e]) f') /\
    (forall l f2, yields m (opened d) l f2 -> (List.length l <= List.length hs + 1)%nat ->
       l = firstn (List.length l) (full ++ [IErr e])).
Proof. exact cut_extension_items. Qed.
Print Assumptions C22_cut_extension_header.

(** Every proper beginning of a header, whatever its records, is an error for the first call. *)
Theorem C22_cut_primary_header : forall m recs last pad n,
  octets (List.concat recs ++ last ++ pad) -> Forall header_record recs -> end_record last ->
  len (List.concat recs ++ last ++ pad) = in_blocks (80 * (len recs + 1)) ->
  (n < List.length (List.concat recs ++ last ++ pad))%nat ->
  exists e, fst (next m (opened (firstn n (List.concat recs ++ last ++ pad)))) = IErr e.
Proof. exact cut_primary. Qed.
Print Assumptions C22_cut_primary_header.

Example C22_ex :
  let last l := match rev l with IErr e :: _ => Some (Some e) | INone :: _ => Some None | _ => None end in
  let result n := last (fst (run Checked 2 (opened (firstn n (file_bytes ex_file))))) in
  map result [2880; 2883; 3000; 5760; 5839; 5840; 5999; 6239; 6240; 8639]%nat =
    [Some None; Some None; Some None; Some None; Some None;
     Some (Some EEof); Some (Some EEof); Some (Some EEof); Some (Some EStatic); Some (Some EStatic)].
Proof. vm_compute. reflexivity. Qed.

(** ** C23: data units start on block boundaries *)

(** Holds whenever the end of every data unit is below 2^63. *)
Theorem C23_offsets_partial : forall m d l f,
  octets d -> len d < 2 ^ 63 -> yields m (opened d) l f -> sizes_fit m l -> chained m 0 l.
Proof. exact offsets_chained. Qed.
Print Assumptions C23_offsets_partial.

(** A declared size of 2^64 - 2176 bytes makes the iterator go back into the primary header. *)
Definition ex_huge : list Z :=
  List.concat (map (fun s => padded 80 (chars s))
    ["SIMPLE  = T"; "BITPIX  = 64"; "NAXIS   = 1"; "NAXIS1  = 2305843009213693680"; "END"])
  ++ blanks 304
  ++ List.concat (map (fun s => padded 80 (chars s))
       ["XTENSION= 'IMAGE   '"; "BITPIX  = 8"; "NAXIS   = 0"; "END"])
  ++ blanks 2560.

Theorem C23_offsets_refuted : forall m, exists d l f h,
  octets d /\ yields m (opened d) l f /\ In (IOk h) l /\ h_offset h mod 2880 <> 0.
Proof.
  intro m. exists ex_huge, (fst (run m 2 (opened ex_huge))), (snd (run m 2 (opened ex_huge))).
  assert (M: misaligned (fst (run m 2 (opened ex_huge))) = true) by (destruct m; vm_compute; reflexivity).
  apply misaligned_ok in M as (h & I & M). exists h.
  split; [apply octetsb_ok; vm_compute; reflexivity|].
  split; [apply run_yields; destruct m; vm_compute; reflexivity|]. split; [exact I|exact M].
Qed.
Print Assumptions C23_offsets_refuted.

Example C23_ex :
  map summary (fst (run Checked 2 (opened ex_huge))) =
    [Some (HPrimary, 2880, Ok 18446744073709549440); Some (HImage, 3584, Ok 0)].
Proof. vm_compute. reflexivity. Qed.

Example C23_ex_chained : exists f,
  yields Checked (opened (file_bytes ex_file)) (fst (run Checked 3 (opened (file_bytes ex_file)))) f /\
  sizes_fit Checked (fst (run Checked 3 (opened (file_bytes ex_file)))).
Proof.
  eexists. split; [apply run_yields; vm_compute; reflexivity|].
  apply sizes_fitb_ok. vm_compute. reflexivity.
Qed.

(** ** C24: only FITS files are accepted *)

(** The first 80 bytes of the header of every HDU returned, in any state of the iterator. *)
Theorem C24_opening_records : forall m d f h f',
  octets d -> rd_data (f_reader f) = d -> 0 <= rd_pos (f_reader f) -> next m f = (IOk h, f') ->
  0 <= h_offset h - in_blocks (80 * len (h_cards h)) /\
  opening_record (h_kind h) (slice d (h_offset h - in_blocks (80 * len (h_cards h))) 80) /\
  (f_start f = true <-> h_kind h = HPrimary).
Proof. exact opens_as. Qed.
Print Assumptions C24_opening_records.

(** Read the other way round: a stream that does not open with SIMPLE = T gives no HDU. *)
Theorem C24_not_fits : forall m d h f',
  octets d -> ~ opening_record HPrimary (firstn 80 d) -> next m (opened d) <> (IOk h, f').
Proof. exact not_fits. Qed.
Print Assumptions C24_not_fits.

Example C24_ex :
  fst (next Checked (opened (padded 2880 (chars "SIMPLE  = F")))) = IErr EEof /\
  fst (next Checked (opened (header_bytes (ex_source ["SIMPLE  = F"; "BITPIX  = 8"; "NAXIS   = 0"] []))))
    = IErr EStatic /\
  summary (fst (next Checked (opened (header_bytes (ex_source ["SIMPLE  = T"; "BITPIX  = 8"; "NAXIS   = 0"] [])))))
    = Some (HPrimary, 2880, Ok 0).
Proof. repeat split; vm_compute; reflexivity. Qed.
