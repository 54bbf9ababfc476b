(** ASCII tables written by the standard and read back (C66).  [SpecWriteAscii] says what such a table looks like; [get_ascii] is the
    model of the reader of its data, [ascii_run] a series of reads of given sizes. *)

From Coq Require Import String List.
From Verif Require Import Base Text Card Reader Header Xtension Fits Bytes ImageIt.
From Verif Require Import SpecCard SpecHeader SpecXt SpecFits SpecImage SpecWrite SpecWriteAscii.
From Verif Require Import WriteProofs10 Prop_Fits.
Local Open Scope string_scope.
Local Open Scope list_scope.
Local Open Scope Z_scope.

(** ** C66 *)

(** Every ASCII table written by the standard is accepted... *)
Theorem C66_table_accepted : forall m n1 cols rows s,
  ascii_written n1 cols rows s -> accepted m (HAsciiTable, s).
Proof. exact accepted_ascii. Qed.
Print Assumptions C66_table_accepted.

(** ... the call of [next] that reaches it gives its shape and columns, the bytes that are read are
    those of the rows, for every series of reads, and the texts of the cells are found in them at
    the columns given. *)
Theorem C66_table_read_back : forall m d pre s post n1 cols rows l f,
  octets d -> file_kinds (pre ++ (HAsciiTable, s) :: post) -> Forall (accepted m) pre -> ascii_written n1 cols rows s ->
  d = file_bytes (pre ++ (HAsciiTable, s) :: post) -> len d < 2 ^ 63 ->
  yields m (opened d) l f -> List.length l = S (List.length pre) ->
  exists l' h t tk, l = l' ++ [IOk h] /\ h_kind h = HAsciiTable /\ h_xt h = XtAscii t /\
    at_naxis1 t = n1 /\ at_naxis2 t = len rows /\ at_tfields t = len cols /\
    at_tbcols t = map ac_start cols /\ at_tforms t = map ac_form cols /\
    get_ascii m f t = Ok tk /\
    (forall sizes k, Forall (fun k => 0 <= k) sizes -> 0 < k ->
       let got := List.concat (fst (ascii_run tk sizes)) in
       let more := fst (buf_read (snd (ascii_run tk sizes)) k) in
       got ++ more = firstn (List.length (got ++ more)) (s_data s) /\ len more <= k /\ (more = [] <-> got = s_data s)) /\
    forall i cells, 0 <= i -> nth_error rows (Z.to_nat i) = Some cells -> fields_at t (s_data s) i = cells.
Proof. exact ascii_read_back. Qed.
Print Assumptions C66_table_read_back.

(** Every list of tables of texts has such a file, and each cell is read back from it. *)
Theorem C66_listings_round_trip : forall m p xs l f n x,
  picture_ok p -> Forall listing_ok xs -> let d := file_bytes (write_listings p xs) in len d < 2 ^ 63 ->
  yields m (opened d) l f -> List.length l = S (S n) -> nth_error xs n = Some x ->
  exists l' h t tk, l = l' ++ [IOk h] /\ h_xt h = XtAscii t /\ at_tforms t = fst x /\ at_naxis2 t = len (snd x) /\
    get_ascii m f t = Ok tk /\
    forall sizes k, Forall (fun k => 0 <= k) sizes -> 0 < k ->
      let got := List.concat (fst (ascii_run tk sizes)) in
      fst (buf_read (snd (ascii_run tk sizes)) k) = [] ->
      forall i cells, 0 <= i -> nth_error (snd x) (Z.to_nat i) = Some cells -> fields_at t got i = cells.
Proof. exact listings_round_trip. Qed.
Print Assumptions C66_listings_round_trip.

Definition ex_listing : listing :=
  ([ACharacter 5; AFixed 6 2; ADecimalInteger 3],
   [[chars "Vega "; chars "  0.03"; chars " 25"]; [chars "Deneb"; chars "  1.25"; chars "802"]]).

Example C66_ex_ok : listing_ok ex_listing.
Proof.
  unfold listing_ok, ex_listing, form_ok. cbn [fst snd form_width]. split; [vm_compute; discriminate|]. split.
  - repeat (apply Forall_cons; [split; [cbn [form_width]; lia|]; first [exact I|lia]|]). apply Forall_nil.
  - split; [|split; vm_compute; reflexivity].
    repeat (apply Forall_cons || apply Forall_nil || apply Forall2_cons || apply Forall2_nil);
      (split; [reflexivity|apply Forall_forall; intros c C; assert (G : forallb (fun c => (32 <=? c) && (c <=? 126)) [c] = true);
        [cbn [In chars] in C; repeat (destruct C as [<-|C]; [reflexivity|]); contradiction|cbn in G; unfold printable; lia]]).
Qed.

Example C66_ex :
  let d := file_bytes (write_listings (BU8, [], []) [ex_listing]) in
  let f := snd (run Checked 2 (opened d)) in
  len d = 3 * 2880 /\ slice d 5760 17 = chars "Vega    0.03  25 " /\
  slice d 3600 80 = chars "TFORM1  = 'A5      '" ++ blanks 60 /\ slice d 3680 80 = chars "TBCOL2  =                    7" ++ blanks 50 /\
  match fst (next Checked (snd (run Checked 1 (opened d)))) with
  | IOk h => match h_xt h with
             | XtAscii t => at_tbcols t = [1; 7; 14] /\
               match get_ascii Checked f t with
               | Ok tk => fields_at t (List.concat (fst (ascii_run tk [20; 0; 9000]))) 1 = [chars "Deneb"; chars "  1.25"; chars "802"]
               | _ => False
               end
             | _ => False
             end
  | _ => False
  end.
Proof. vm_compute. repeat split. Qed.
