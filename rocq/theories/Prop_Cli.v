(** Properties of the command line tool [fits struct] (C59).  [cli_struct] is its model, with the
    printed lines as output; [report] ([SpecCli]) is the report of a file from its keywords and
    its layout. *)

From Coq Require Import String.
From Verif Require Import Base Utf8 Text Card Reader Header Xtension Fits Cli SpecUtf8 SpecCard SpecHeader SpecXt SpecFits SpecCli.
From Verif Require Import FitsProofs4 CliProofs Prop_Fits Prop_ImageInt.

(** ** C59: the report of the command line tool *)

Theorem C59_report : forall m d hs fuel,
  octets d -> file_kinds hs -> Forall (accepted m) hs -> d = file_bytes hs -> len d < 2 ^ 63 ->
  (List.length hs < fuel)%nat ->
  exists lines, report m 0 0 hs lines /\ cli_struct m fuel (mk_reader d 0) = Some (lines, Finished).
Proof. exact struct_whole_file. Qed.
Print Assumptions C59_report.

(** The same when the last data unit is cut or up to 79 bytes follow it. *)
Theorem C59_cut_data : forall m d init k s rest fuel,
  octets d -> file_kinds (init ++ [(k, s)]) -> Forall (accepted m) (init ++ [(k, s)]) ->
  d = file_bytes init ++ header_bytes s ++ rest ->
  len rest < in_blocks (len (s_data s)) + 80 ->
  len (file_bytes (init ++ [(k, s)])) < 2 ^ 63 ->
  (List.length (init ++ [(k, s)]) < fuel)%nat ->
  exists lines, report m 0 0 (init ++ [(k, s)]) lines /\
    cli_struct m fuel (mk_reader d 0) = Some (lines, Finished).
Proof. exact struct_cut_data. Qed.
Print Assumptions C59_cut_data.

(** A cut in an extension header: the complete HDUs are reported, then it fails. *)
Theorem C59_cut_header : forall m d hs k s n fuel,
  octets d -> file_kinds hs -> Forall (accepted m) hs -> k <> HPrimary -> accepted m (k, s) ->
  d = file_bytes hs ++ firstn n (header_bytes s) ->
  (80 <= n)%nat -> (n < List.length (header_bytes s))%nat -> len d < 2 ^ 63 -> (List.length hs < fuel)%nat ->
  exists lines e, report m 0 0 hs lines /\ cli_struct m fuel (mk_reader d 0) = Some (lines, Failed e).
Proof. exact struct_cut_header. Qed.
Print Assumptions C59_cut_header.

(** The file of [C20_ex_file], which meets the hypotheses. *)
Example C59_ex : forall m,
  cli_struct m 4 (mk_reader (file_bytes ex_file) 0) = Some (map chars
    ["HDU[0]:"; " * HDU type: PRIMARY"; " * HEAD naxis: [5]; bitpix : U8; dimensions: 5.";
     " * DATA starting byte: 2880; byte size: 5.";
     "HDU[1]:"; " * HDU type: IMAGE"; " * HEAD naxis: [2, 3]; bitpix : I16; dimensions: 2x3.";
     " * DATA starting byte: 8640; byte size: 12.";
     "HDU[2]:"; " * HDU type: ASCIITABLE"; " * HEAD n_cols: 0; n_rows: 1.";
     " * DATA starting byte: 14400; byte size: 3."]%string, Finished).
Proof. intros []; vm_compute; reflexivity. Qed.
Example C59_ex_cut :
  match cli_struct Checked 4 (mk_reader (firstn 6000 (file_bytes ex_file)) 0) with
  | Some (lines, e) => Some (len lines, e) | None => None
  end = Some (4, Failed EEof).
Proof. vm_compute. reflexivity. Qed.

(** On the ring file of C54 it prints for ever. *)
Theorem C59_endless_refuted : forall m fuel, cli_struct m fuel (mk_reader ex_ring 0) = None.
Proof. intros m. exact (struct_endless m ex_ring (proj2 (proj2 (C54_endless_refuted m)))). Qed.
Print Assumptions C59_endless_refuted.
