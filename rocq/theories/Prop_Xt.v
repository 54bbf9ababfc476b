(** Properties of the extension descriptions (C18, C19, C30, C31, C44).  [image_parse],
    [asciitable_parse], [bintable_parse] are the models of the three [Xtension::parse] functions,
    [*_num_bytes] of [get_num_bytes_data_block]; [SpecXt] holds the specification side. *)

From Coq Require Import String List.
From Verif Require Import Base Utf8 Text Card Reader Header Xtension SpecUtf8 SpecCard SpecHeader SpecXt.
From Verif Require Import TextLemmas HeaderProps XtProofs XtProofs2 XtProofs3.

(** The keyword table of a header given by its lines, used in the examples. *)
Definition ex_table (lines : list string) : vmap :=
  match consume_cards (mk_reader (List.concat (map (fun s => padded 80 (chars s)) lines)
                                  ++ padded 80 (chars "END")) 0) 0 with
  | (Ok cards, _, _) => match process_cards Checked cards with Ok vs => vs | _ => [] end
  | _ => []
  end.

(** ** C18: images *)

(** The axes are named NAXIS1, NAXIS2, ... in decimal without leading zeros. *)
Theorem C18_axis_names : forall name i,
  0 <= i -> exists s, indexed name i = name ++ s /\ decimal i s /\ forall s', decimal i s' -> s' = s.
Proof. exact indexed_name. Qed.
Print Assumptions C18_axis_names.

Theorem C18_image_parse : forall vs im,
  image_parse vs = Ok im <->
  has_int vs (chars "BITPIX") (bitpix_code (im_bitpix im)) /\
  has_int vs (chars "NAXIS") (len (im_naxisn im)) /\ u64 (len (im_naxisn im)) /\
  axes_from vs (chars "NAXIS") 1 (im_naxisn im).
Proof. exact image_parse_iff. Qed.
Print Assumptions C18_image_parse.

Theorem C18_parse_never_panics : forall vs, image_parse vs <> Panic.
Proof. exact image_parse_no_panic. Qed.
Print Assumptions C18_parse_never_panics.

Theorem C18_size_release : forall vs im,
  image_parse vs = Ok im ->
  image_num_bytes Wrapping im =
  Ok (if len (im_naxisn im) =? 0 then 0
      else (Z.abs (bitpix_code (im_bitpix im)) / 8 * product (im_naxisn im)) mod 2 ^ 64).
Proof. exact image_size_release. Qed.
Print Assumptions C18_size_release.

(** In a checked build; the axes must not be zero (see [C18_zero_axis_refuted]). *)
Theorem C18_size_checked_partial : forall vs im,
  image_parse vs = Ok im -> Forall (fun a => a <> 0) (im_naxisn im) ->
  let size := if len (im_naxisn im) =? 0 then 0
              else Z.abs (bitpix_code (im_bitpix im)) / 8 * product (im_naxisn im) in
  image_num_bytes Checked im = if size <? 2 ^ 64 then Ok size else Panic.
Proof. exact image_size_checked_build. Qed.
Print Assumptions C18_size_checked_partial.

(** With zero axes too, as long as the product does not overflow on the way. *)
Theorem C18_size_exact : forall m vs im,
  image_parse vs = Ok im ->
  (forall l r, im_naxisn im = l ++ r -> product l < 2 ^ 64) ->
  let size := if len (im_naxisn im) =? 0 then 0
              else Z.abs (bitpix_code (im_bitpix im)) / 8 * product (im_naxisn im) in
  size < 2 ^ 64 -> image_num_bytes m im = Ok size.
Proof. exact image_size_exact. Qed.
Print Assumptions C18_size_exact.

(** The size is 0, but a checked build panics. *)
Theorem C18_zero_axis_refuted : exists vs im,
  image_parse vs = Ok im /\ product (im_naxisn im) = 0 /\ image_num_bytes Checked im = Panic.
Proof.
  exists (ex_table ["BITPIX  = 8"; "NAXIS   = 3"; "NAXIS1  = 9223372036854775807"; "NAXIS2  = 4"; "NAXIS3  = 0"]%string).
  exists (mk_image BU8 [2 ^ 63 - 1; 4; 0]).
  split; [vm_compute; reflexivity|]. split; [reflexivity|vm_compute; reflexivity].
Qed.
Print Assumptions C18_zero_axis_refuted.

Example C18_ex :
  let vs := ex_table ["BITPIX  = -32"; "NAXIS   = 2"; "NAXIS1  = 300"; "NAXIS2  = 20"]%string in
  image_parse vs = Ok (mk_image BF32 [300; 20]) /\
  image_num_bytes Checked (mk_image BF32 [300; 20]) = Ok 24000 /\
  image_parse (ex_table ["BITPIX  = -32"; "NAXIS   = 2"; "NAXIS1  = 300"]%string) = Err EDynamic.
Proof. vm_compute. repeat split; reflexivity. Qed.

Example C18_ex_overflow :
  let vs := ex_table ["BITPIX  = 16"; "NAXIS   = 1"; "NAXIS1  = 9223372036854775807"]%string in
  exists im, image_parse vs = Ok im /\ Forall (fun a => a <> 0) (im_naxisn im) /\
    image_num_bytes Wrapping im = Ok (2 ^ 64 - 2) /\
    image_num_bytes Checked (mk_image BI32 [2 ^ 63 - 1]) = Panic /\
    image_num_bytes Wrapping (mk_image BI32 [2 ^ 63 - 1]) = Ok (2 ^ 64 - 4).
Proof.
  exists (mk_image BI16 [2 ^ 63 - 1]). split; [vm_compute; reflexivity|].
  split; [repeat constructor; discriminate|]. vm_compute. repeat split; reflexivity.
Qed.

(** ** C19: tables *)

Theorem C19_ascii_table : forall vs t,
  asciitable_parse vs = Ok t ->
  has_int vs (chars "BITPIX") 8 /\ has_int vs (chars "NAXIS") 2 /\
  has_int vs (chars "NAXIS1") (at_naxis1 t) /\ u64 (at_naxis1 t) /\
  has_int vs (chars "NAXIS2") (at_naxis2 t) /\ u64 (at_naxis2 t) /\
  has_int vs (chars "PCOUNT") 0 /\ at_pcount t = 0 /\
  has_int vs (chars "GCOUNT") 1 /\ at_gcount t = 1 /\
  has_int vs (chars "TFIELDS") (at_tfields t) /\ u64 (at_tfields t) /\
  length (at_tbcols t) = length (at_tforms t) /\
  columns (fun i a => acolumn vs i (fst a) (snd a)) (Z.to_nat (at_tfields t)) 1
          (combine (at_tbcols t) (at_tforms t)).
Proof. exact asciitable_parse_ok. Qed.
Print Assumptions C19_ascii_table.

Theorem C19_ascii_accepted : forall vs n1 n2 tf,
  has_int vs (chars "BITPIX") 8 -> has_int vs (chars "NAXIS") 2 ->
  has_int vs (chars "NAXIS1") n1 -> u64 n1 -> has_int vs (chars "NAXIS2") n2 -> u64 n2 ->
  has_int vs (chars "PCOUNT") 0 -> has_int vs (chars "GCOUNT") 1 ->
  has_int vs (chars "TFIELDS") tf -> 0 <= tf -> tf * 24 < 2 ^ 63 ->
  exists t, asciitable_parse vs = Ok t /\ at_naxis1 t = n1 /\ at_naxis2 t = n2 /\ at_tfields t = tf.
Proof. exact asciitable_accepted. Qed.
Print Assumptions C19_ascii_accepted.

Theorem C19_ascii_size : forall m t,
  u64 (at_naxis1 t) -> u64 (at_naxis2 t) ->
  asciitable_num_bytes m t =
  (if at_naxis1 t * at_naxis2 t <? 2 ^ 64 then Ok (at_naxis1 t * at_naxis2 t)
   else match m with
        | Checked => Panic
        | Wrapping => Ok ((at_naxis1 t * at_naxis2 t) mod 2 ^ 64)
        end).
Proof. exact asciitable_size. Qed.
Print Assumptions C19_ascii_size.

Theorem C19_bin_table : forall m vs t,
  bintable_parse m vs = Ok t ->
  has_int vs (chars "BITPIX") 8 /\ has_int vs (chars "NAXIS") 2 /\
  has_int vs (chars "NAXIS1") (bt_naxis1 t) /\ u64 (bt_naxis1 t) /\
  has_int vs (chars "NAXIS2") (bt_naxis2 t) /\ u64 (bt_naxis2 t) /\
  has_int vs (chars "PCOUNT") (bt_pcount t) /\ u64 (bt_pcount t) /\
  has_int vs (chars "GCOUNT") 1 /\ bt_gcount t = 1 /\
  has_int vs (chars "TFIELDS") (bt_tfields t) /\ u64 (bt_tfields t) /\
  length (bt_tforms t) = length (bt_ttypes t) /\
  columns (fun i a => column vs i (fst a) (snd a)) (Z.to_nat (bt_tfields t)) 1
          (combine (bt_tforms t) (bt_ttypes t)) /\
  (has_int vs (chars "THEAP") (bt_theap t) /\ u64 (bt_theap t) \/
   (forall z, has_int vs (chars "THEAP") z -> ~ u64 z) /\
   bt_theap t = (bt_naxis1 t * bt_naxis2 t) mod 2 ^ 64) /\
  bt_naxis1 t = (total (map field_bits (bt_tforms t)) mod 2 ^ 64) / 8 /\
  (m = Checked -> total (map field_bits (bt_tforms t)) < 2 ^ 64).
Proof. exact bintable_parse_ok. Qed.
Print Assumptions C19_bin_table.

Theorem C19_bin_size : forall m t,
  u64 (bt_naxis1 t) -> u64 (bt_naxis2 t) -> u64 (bt_pcount t) ->
  bintable_num_bytes m t =
  (if bt_naxis1 t * bt_naxis2 t + bt_pcount t <? 2 ^ 64
   then Ok (bt_naxis1 t * bt_naxis2 t + bt_pcount t)
   else match m with
        | Checked => Panic
        | Wrapping => Ok ((bt_naxis1 t * bt_naxis2 t + bt_pcount t) mod 2 ^ 64)
        end).
Proof. exact bintable_size. Qed.
Print Assumptions C19_bin_size.

(** Standard tables are accepted when every column fills whole bytes ... *)
Theorem C19_standard_accepted_partial : forall m vs n1 n2 pc tf cols,
  standard_bintable vs n1 n2 pc tf cols ->
  Forall (fun c => field_bits (fst c) mod 8 = 0) cols ->
  exists t, bintable_parse m vs = Ok t /\ bt_naxis1 t = n1 /\ bt_naxis2 t = n2 /\
    bt_pcount t = pc /\ bt_tforms t = map fst cols /\ bt_ttypes t = map snd cols.
Proof. exact standard_accepted. Qed.
Print Assumptions C19_standard_accepted_partial.

(** ... and always rejected when some column does not. *)
Theorem C19_bit_columns_rejected : forall m vs n1 n2 pc tf cols,
  standard_bintable vs n1 n2 pc tf cols ->
  ~ Forall (fun c => field_bits (fst c) mod 8 = 0) cols ->
  bintable_parse m vs = Err EStatic.
Proof. exact standard_rejected. Qed.
Print Assumptions C19_bit_columns_rejected.

Definition ex_bin (form1 naxis1 : string) : vmap :=
  ex_table ["XTENSION= 'BINTABLE'"; "BITPIX  = 8"; "NAXIS   = 2"; "NAXIS1  = " ++ naxis1; "NAXIS2  = 5";
            "PCOUNT  = 100"; "GCOUNT  = 1"; "TFIELDS = 2"; "TFORM1  = '" ++ form1 ++ "'";
            "TTYPE1  = 'FLAGS'"; "TFORM2  = '2E'"]%string.

Lemma ex_has_int vs k z c : get vs k = Some (VInteger z c) -> has_int vs k z.
Proof. intro H. now exists c. Qed.

(** Hypotheses of the last two theorems on concrete headers. *)
Lemma ex_bin_standard form naxis1 n1 digits r :
  form = "16X"%string /\ naxis1 = "10"%string /\ n1 = 10 /\ digits = [1; 6] /\ r = 16 \/
  form = "3X"%string /\ naxis1 = "9"%string /\ n1 = 9 /\ digits = [3] /\ r = 3 ->
  standard_bintable (ex_bin form naxis1) n1 5 100 2
    [(TElem TyX r, Some (chars "FLAGS")); (TElem TyE 2, None)].
Proof.
  intro H. unfold standard_bintable.
  assert (HC: columns (fun i a => column (ex_bin form naxis1) i (fst a) (snd a)) (Z.to_nat 2) 1
            [(TElem TyX r, Some (chars "FLAGS")); (TElem TyE 2, None)]).
  { apply btfields_columns.
    destruct H as [(-> & -> & -> & -> & ->)|(-> & -> & -> & -> & ->)]; vm_compute; reflexivity. }
  assert (HZ: forall z, has_int (ex_bin form naxis1) (chars "ZNAXIS") z -> z < 2 ^ 60).
  { intros z (c & HH).
    destruct H as [(-> & -> & -> & -> & ->)|(-> & -> & -> & -> & ->)]; vm_compute in HH; discriminate. }
  split; [|split; [|split; [|split; [|split; [|split; [|split; [|split; [|split; [|split; [|split; [|split; [exact HC|]]]]]]]]]]]].
  all: destruct H as [(-> & -> & -> & -> & ->)|(-> & -> & -> & -> & ->)];
    first [eapply ex_has_int; vm_compute; reflexivity | unfold u64; lia | idtac].
  - repeat split; auto.
  - repeat split; auto.
Qed.

Theorem C19_bit_column_refuted : exists vs n1 n2 pc tf cols,
  standard_bintable vs n1 n2 pc tf cols /\ forall m, bintable_parse m vs = Err EStatic.
Proof.
  exists (ex_bin "3X" "9"), 9, 5, 100, 2, [(TElem TyX 3, Some (chars "FLAGS")); (TElem TyE 2, None)].
  split; [eapply ex_bin_standard; right; repeat split|].
  intros []; vm_compute; reflexivity.
Qed.
Print Assumptions C19_bit_column_refuted.

Example C19_ex :
  standard_bintable (ex_bin "16X" "10") 10 5 100 2 [(TElem TyX 16, Some (chars "FLAGS")); (TElem TyE 2, None)] /\
  exists t, bintable_parse Checked (ex_bin "16X" "10") = Ok t /\ bintable_num_bytes Checked t = Ok 150 /\
    bt_theap t = 50 /\ bt_tforms t = [TElem TyX 16; TElem TyE 2].
Proof.
  split; [eapply ex_bin_standard; left; repeat split|].
  eexists. split; [vm_compute; reflexivity|]. vm_compute. repeat split; reflexivity.
Qed.

Definition ex_ascii : vmap :=
  ex_table ["XTENSION= 'TABLE'"; "BITPIX  = 8"; "NAXIS   = 2"; "NAXIS1  = 20"; "NAXIS2  = 3";
            "PCOUNT  = 0"; "GCOUNT  = 1"; "TFIELDS = 4"; "TBCOL1  = 1"; "TFORM1  = 'A5'"; "TBCOL2  = 6";
            "TFORM2  = 'Z9'"; "TBCOL3  = 7"; "TFORM3  = 'F8.3  '"; "TFORM4  = 'I3'"]%string.

Example C19_ex_ascii :
  exists t, asciitable_parse ex_ascii = Ok t /\ asciitable_num_bytes Checked t = Ok 60 /\
    at_tbcols t = [1; 7] /\ at_tforms t = [ACharacter 5; AFixed 8 3].
Proof. eexists. split; [vm_compute; reflexivity|]. vm_compute. repeat split; reflexivity. Qed.

(** ** C30: TFORM of binary tables *)

Theorem C30_tform : forall s f, parse_tform s = Some f <-> tform_spelled f s.
Proof. exact parse_tform_iff. Qed.
Print Assumptions C30_tform.

(** The retained columns are exactly those with a recognised TFORM, in order, with their names. *)
Theorem C30_columns : forall vs n i l,
  columns (fun i a => column vs i (fst a) (snd a)) n i l <-> l = btfields vs n i.
Proof. exact btfields_columns. Qed.
Print Assumptions C30_columns.

Example C30_ex :
  parse_tform (chars "12J") = Some (TElem TyJ 12) /\ parse_tform (chars "D") = Some (TElem TyD 1) /\
  parse_tform (chars "1PB(37)") = Some (TDesc32 TyB) /\ parse_tform (chars "QE") = Some (TDesc64 TyE) /\
  parse_tform (chars "3Z") = None /\ parse_tform (chars "1P") = None.
Proof. vm_compute. repeat split; reflexivity. Qed.

(** ** C31: TFORM of ASCII tables *)

Theorem C31_tform : forall s f,
  parse_atform s = Ok f <->
  exists t, stripped_right (fun c => is_unicode_ws c = true) s t /\ atform_spelled f t.
Proof. exact parse_atform_iff. Qed.
Print Assumptions C31_tform.

Theorem C31_columns : forall vs n i l,
  columns (fun i a => acolumn vs i (fst a) (snd a)) n i l <-> l = atfields vs n i.
Proof. exact atfields_columns. Qed.
Print Assumptions C31_columns.

Example C31_ex :
  parse_atform (chars "F8.3 ") = Ok (AFixed 8 3) /\ parse_atform (chars "D25.17") = Ok (AExpD 25 17) /\
  parse_atform (chars "I") = Err EDynamic /\ parse_atform (chars "E8") = Err EDynamic /\
  atfields ex_ascii 4 1 = [(1, ACharacter 5); (7, AFixed 8 3)].
Proof. vm_compute. repeat split; reflexivity. Qed.

(** ** C44: compressed images *)

(** Everything but ZQUANTIZ is taken over as written, and nothing else is. *)
Theorem C44_compression_keywords_partial : forall m vs t z,
  NoDup (keywords vs) -> (forall j, In (chars "ZNAME" ++ j) (keywords vs) -> len j <= 3) ->
  (forall n1 n2, blocksize_given vs n1 -> blocksize_given vs n2 -> n1 = n2) ->
  bintable_parse m vs = Ok t ->
  (bt_zimage t = Some z <-> image_given vs (bt_ttypes t) z /\ z_quant z = None).
Proof. exact zimage_iff. Qed.
Print Assumptions C44_compression_keywords_partial.

Theorem C44_zquantiz_never_recognised : forall m vs t z,
  bintable_parse m vs = Ok t -> bt_zimage t = Some z -> z_quant z = None.
Proof. exact zquantiz_never. Qed.
Print Assumptions C44_zquantiz_never_recognised.

Definition ex_zimage : vmap :=
  ex_table ["XTENSION= 'BINTABLE'"; "BITPIX  = 8"; "NAXIS   = 2"; "NAXIS1  = 16"; "NAXIS2  = 5";
            "PCOUNT  = 100"; "GCOUNT  = 1"; "TFIELDS = 2"; "TFORM1  = 'PB'"; "TTYPE1  = 'OTHER'";
            "TFORM2  = '1PB(100)'"; "TTYPE2  = 'COMPRESSED_DATA'";
            "ZIMAGE  = T"; "ZBITPIX = -32"; "ZCMPTYPE= 'RICE_1'"; "ZNAXIS  = 2"; "ZNAXIS1 = 30"; "ZNAXIS2 = 20";
            "ZTILE2  = 4"; "ZNAME1  = 'BYTEPIX'"; "ZVAL1   = 4"; "ZNAME2  = 'BLOCKSIZE'"; "ZVAL2   = 16";
            "ZQUANTIZ= 'SUBTRACTIVE_DITHER_1'"; "ZDITHER0= 7"]%string.

Theorem C44_zquantiz_refuted : exists vs t z,
  has_text vs (chars "ZQUANTIZ") (chars "SUBTRACTIVE_DITHER_1") /\
  bintable_parse Checked vs = Ok t /\ bt_zimage t = Some z /\ z_quant z = None.
Proof.
  exists ex_zimage. eexists. eexists. split; [left; eexists; vm_compute; reflexivity|].
  split; [vm_compute; reflexivity|]. split; [cbn [bt_zimage]; reflexivity|]. reflexivity.
Qed.
Print Assumptions C44_zquantiz_refuted.

Example C44_ex :
  exists t, bintable_parse Wrapping ex_zimage = Ok t /\
    bt_zimage t = Some (mk_zimage (ZRice 16 4) BF32 [30; 20] [30; 4] None (Some 7) 1).
Proof. eexists. split; vm_compute; reflexivity. Qed.

Example C44_ex_hypotheses :
  NoDup (keywords ex_zimage) /\ (forall j, In (chars "ZNAME" ++ j) (keywords ex_zimage) -> len j <= 3) /\
  (forall n1 n2, blocksize_given ex_zimage n1 -> blocksize_given ex_zimage n2 -> n1 = n2).
Proof.
  split; [|split].
  - vm_compute. repeat (constructor; [simpl; intuition discriminate|]). constructor.
  - intros j I. vm_compute in I. repeat (destruct I as [I|I]; [first [discriminate|inversion I; vm_compute; discriminate]|]). destruct I.
  - assert (G: forall n, blocksize_given ex_zimage n -> n = 16).
    { intros n (j & c & H1 & (c' & H2) & _). apply get_in in H1.
      vm_compute in H1. repeat (destruct H1 as [H1|H1]; [inversion H1; subst; vm_compute in H2; congruence|]).
      destruct H1. }
    intros n1 n2 H1 H2. rewrite (G n1 H1), (G n2 H2). reflexivity.
Qed.
