(** Properties of single header records (C01-C11, C17).  [parse_card] is the model of
    [Card::try_from(&[u8; 80])]; everything else on the right-hand sides is from [SpecCard] and
    [SpecUtf8].  The records are arbitrary octet lists; the 80-byte ones are those the crate
    meets. *)

From Verif Require Import Base Utf8 Text Card SpecUtf8 SpecCard TextLemmas CardProofs CardProofs2.
From Verif Require Import CardProps.

(** ** C01: classification *)

Theorem C01_end_iff : forall b, parse_card b = Ok CEnd <-> has_keyword b (chars "END").
Proof. exact record_end. Qed.
Print Assumptions C01_end_iff.

Example C01_end_ex :
  has_keyword (padded 80 (chars "END")) (chars "END") /\
  parse_card (padded 80 (chars "END")) = Ok CEnd /\
  parse_card (padded 80 (chars "ENDING  = 3")) = Ok (CValue (chars "ENDING") (VInteger 3 None)).
Proof.
  split; [|split; vm_compute; reflexivity].
  exists [], (blanks 5). repeat split; auto.
  - repeat constructor.
  - right. split; [exists 69, [78; 68]|exists [69; 78], 68]; unfold white; split; auto; lia.
Qed.

Theorem C01_history_iff : forall b t,
  parse_card b = Ok (CHistory t) <->
  has_keyword b (chars "HISTORY") /\ stripped_right white (sanitized (skipn 8 b)) t.
Proof. exact record_history. Qed.
Print Assumptions C01_history_iff.

Theorem C01_comment_iff : forall b t,
  parse_card b = Ok (CComment t) <->
  stripped_right white (sanitized (skipn 8 b)) t /\
  (has_keyword b (chars "COMMENT") \/ (has_keyword b [] /\ t <> [])).
Proof. exact record_comment. Qed.
Print Assumptions C01_comment_iff.

Theorem C01_space_iff : forall b,
  parse_card b = Ok CSpace <->
  has_keyword b [] /\ stripped_right white (sanitized (skipn 8 b)) [].
Proof. exact record_space. Qed.
Print Assumptions C01_space_iff.

Example C01_commentary_ex :
  parse_card (padded 80 (chars "COMMENT a / 'b'")) = Ok (CComment (chars "a / 'b'")) /\
  parse_card (padded 80 (chars "HISTORY step 1")) = Ok (CHistory (chars "step 1")) /\
  parse_card (padded 80 (chars "          free text")) = Ok (CComment (chars "  free text")) /\
  parse_card (blanks 80) = Ok CSpace.
Proof. repeat split; vm_compute; reflexivity. Qed.

Theorem C01_value_only : forall b name v,
  octets b -> parse_card b = Ok (CValue name v) ->
  keyword_text b name /\ name <> [] /\ ~ special_keyword name /\ firstn 2 (skipn 8 b) = chars "= ".
Proof. exact record_value_spec. Qed.
Print Assumptions C01_value_only.

Theorem C01_undefined_iff : forall b t,
  octets b ->
  (parse_card b = Ok (CUndefined t) <->
   t = utf8_lossy b /\
   (exists kw, keyword_text b kw /\ kw <> [] /\ ~ special_keyword kw) /\
   firstn 2 (skipn 8 b) <> chars "= ").
Proof. exact record_undefined_spec. Qed.
Print Assumptions C01_undefined_iff.

Example C01_value_ex :
  parse_card (padded 80 (chars "NAXIS   = 2")) = Ok (CValue (chars "NAXIS") (VInteger 2 None)) /\
  parse_card (padded 80 (chars "NAXIS   =2")) = Ok (CUndefined (padded 80 (chars "NAXIS   =2"))).
Proof. split; vm_compute; reflexivity. Qed.

Theorem C01_special_kinds : forall b,
  (forall s c, parse_card b = Ok (CContinuation s c) -> has_keyword b (chars "CONTINUE")) /\
  (forall x c, parse_card b = Ok (CXtension x c) -> has_keyword b (chars "XTENSION")) /\
  (forall n v, parse_card b = Ok (CHierarch n v) -> has_keyword b (chars "HIERARCH")).
Proof. exact special_kinds. Qed.
Print Assumptions C01_special_kinds.

Theorem C01_bad_keyword : forall b,
  octets b -> (forall kw, ~ keyword_text b kw) -> parse_card b = Err EUtf8.
Proof. exact record_bad_keyword. Qed.
Print Assumptions C01_bad_keyword.

Example C01_special_ex :
  parse_card (padded 80 (chars "CONTINUE  'more&' / c"))
    = Ok (CContinuation (Some (chars "more&")) (Some (chars " c"))) /\
  parse_card (255 :: blanks 79) = Err EUtf8.
Proof. split; vm_compute; reflexivity. Qed.

(** The decoders used for keywords and texts invert UTF-8. *)
Theorem C01_utf8_decoding : forall l s,
  octets l ->
  (from_utf8 l = Some s <-> l = utf8_encode s /\ Forall scalar s) /\
  (l = utf8_encode s -> Forall scalar s -> utf8_lossy l = s).
Proof. exact utf8_decoding. Qed.
Print Assumptions C01_utf8_decoding.

Example C01_utf8_ex : utf8_encode [8364; 65] = [226; 130; 172; 65] /\ utf8_lossy [226; 130; 172; 65; 200] = [8364; 65; 65533].
Proof. split; vm_compute; reflexivity. Qed.

(** ** C02: strings *)

Theorem C02_string_roundtrip : forall kw lead s trail comment,
  ordinary_keyword kw -> Forall printable s -> opt_printable comment ->
  parse_card (value_record kw (value_field lead (fits_string s) trail comment))
  = Ok (CValue kw (VString (canonical_string s) (option_map rtrim comment))).
Proof. exact string_value_roundtrip_proof. Qed.
Print Assumptions C02_string_roundtrip.

Example C02_string_ex :
  value_record (chars "OBJECT") (value_field 1 (fits_string (chars "O'Brien / x ")) 2 (Some (chars " it's '/' ")))
    = padded 80 (chars "OBJECT  =  'O''Brien / x '  / it's '/' ") /\
  parse_card (padded 80 (chars "OBJECT  =  'O''Brien / x '  / it's '/' "))
    = Ok (CValue (chars "OBJECT") (VString (chars "O'Brien / x") (Some (chars " it's '/'")))).
Proof. split; vm_compute; reflexivity. Qed.

(** ** C03: integers *)

Theorem C03_integer_roundtrip : forall kw lead s ds trail comment,
  ordinary_keyword kw -> Forall digit ds -> ds <> [] -> opt_printable comment ->
  let n := apply_sign s (dec_value ds) in
  parse_card (value_record kw (value_field lead (int_literal s ds) trail comment))
  = Ok (CValue kw
      (if (- 2 ^ 63 <=? n) && (n <=? 2 ^ 63 - 1) then VInteger n (option_map rtrim comment)
       else VFloat (FDec (is_neg s) (dec_value ds) 0) (option_map rtrim comment))).
Proof. exact integer_roundtrip. Qed.
Print Assumptions C03_integer_roundtrip.

Example C03_integer_ex :
  parse_card (padded 80 (chars "BZERO   = -9223372036854775808 / min"))
    = Ok (CValue (chars "BZERO") (VInteger (- 2 ^ 63) (Some (chars " min")))) /\
  parse_card (padded 80 (chars "BZERO   = +9223372036854775808"))
    = Ok (CValue (chars "BZERO") (VFloat (FDec false (2 ^ 63) 0) None)).
Proof. split; vm_compute; reflexivity. Qed.

(** ** C04: reals.  [FDec neg m e] is the decimal number (-1)^neg * m * 10^e, before the
    rounding to f64. *)

Theorem C04_real_roundtrip : forall kw lead s ip f e trail comment,
  ordinary_keyword kw ->
  Forall digit ip -> Forall digit (frac_digits f) -> ip ++ frac_digits f <> [] -> expo_ok e ->
  (f <> None \/ e <> NoExp) -> opt_printable comment ->
  parse_card (value_record kw (value_field lead (real_literal s ip f e) trail comment))
  = Ok (CValue kw
      (VFloat (FDec (is_neg s) (dec_value (ip ++ frac_digits f))
                 (expo_value e - Z.of_nat (length (frac_digits f))))
              (option_map rtrim comment))).
Proof. exact real_roundtrip. Qed.
Print Assumptions C04_real_roundtrip.

Theorem C04_d_exponent_is_e : forall kw lead s ip f es eds trail comment,
  ordinary_keyword kw ->
  Forall digit ip -> Forall digit (frac_digits f) -> ip ++ frac_digits f <> [] ->
  Forall digit eds -> eds <> [] -> opt_printable comment ->
  parse_card (value_record kw (value_field lead (real_literal s ip f (Exp 68 es eds)) trail comment))
  = parse_card (value_record kw (value_field lead (real_literal s ip f (Exp 69 es eds)) trail comment)).
Proof. exact d_is_e. Qed.
Print Assumptions C04_d_exponent_is_e.

Example C04_real_ex :
  parse_card (padded 80 (chars "CRVAL1  = -1.25D+3 / deg"))
    = Ok (CValue (chars "CRVAL1") (VFloat (FDec true 125 1) (Some (chars " deg")))) /\
  real_literal Minus [1] (Some [2; 5]) (Exp 68 Plus [3]) = chars "-1.25D+3".
Proof. split; vm_compute; reflexivity. Qed.

(** ** C05: logicals *)

Theorem C05_logical_value : forall kw lead (v : bool) t trail comment,
  ordinary_keyword kw ->
  compact ((if v then 84 else 70) :: t) -> Forall plain t -> opt_printable comment ->
  parse_card (value_record kw (value_field lead ((if v then 84 else 70) :: t) trail comment))
  = Ok (CValue kw (VLogical v (option_map rtrim comment))).
Proof. exact logical_value. Qed.
Print Assumptions C05_logical_value.

Theorem C05_logical_only : forall b name v c,
  parse_card b = Ok (CValue name (VLogical v c)) ->
  exists w rest, skipn 10 b = w ++ (if v then 84 else 70) :: rest /\ Forall white w.
Proof. exact logical_only. Qed.
Print Assumptions C05_logical_only.

Example C05_logical_ex :
  parse_card (padded 80 (chars "SIMPLE  =                    T / conforms"))
    = Ok (CValue (chars "SIMPLE") (VLogical true (Some (chars " conforms")))) /\
  parse_card (padded 80 (chars "EXTEND  = F")) = Ok (CValue (chars "EXTEND") (VLogical false None)).
Proof. split; vm_compute; reflexivity. Qed.

(** The kind of a parsed value is decided by the first character of its field. *)
Theorem C05_value_kinds : forall b name v,
  parse_card b = Ok (CValue name v) ->
  match v with
  | VLogical x _ => exists w rest, skipn 10 b = w ++ (if x then 84 else 70) :: rest /\ Forall white w
  | VString _ _ => exists w rest, skipn 10 b = w ++ 39 :: rest /\ Forall white w
  | VInteger _ _ | VFloat _ _ =>
      exists w c rest, skipn 10 b = w ++ c :: rest /\ Forall white w /\
        (48 <= c <= 57 \/ c = 45 \/ c = 43 \/ c = 46)
  | _ => True
  end.
Proof. exact value_kinds. Qed.
Print Assumptions C05_value_kinds.

(** ** C06: commentary *)

Theorem C06_commentary_roundtrip : forall text,
  Forall printable text ->
  parse_card (chars "COMMENT " ++ text) = Ok (CComment (rtrim text)) /\
  parse_card (chars "HISTORY " ++ text) = Ok (CHistory (rtrim text)) /\
  parse_card (blanks 8 ++ text) = Ok (if str_eqb (rtrim text) [] then CSpace else CComment (rtrim text)).
Proof. exact commentary_roundtrip. Qed.
Print Assumptions C06_commentary_roundtrip.

Theorem C06_commentary_any_bytes : forall b,
  (has_keyword b (chars "COMMENT") ->
     exists t, parse_card b = Ok (CComment t) /\ stripped_right white (sanitized (skipn 8 b)) t) /\
  (has_keyword b (chars "HISTORY") ->
     exists t, parse_card b = Ok (CHistory t) /\ stripped_right white (sanitized (skipn 8 b)) t).
Proof. exact commentary_any. Qed.
Print Assumptions C06_commentary_any_bytes.

Example C06_commentary_ex :
  parse_card (chars "COMMENT " ++ [65; 9; 66; 200; 32; 32])
    = Ok (CComment [65; 65533; 66; 65533]).
Proof. vm_compute. reflexivity. Qed.

(** ** C08: HIERARCH *)

Theorem C08_hierarch_record : forall kw lead toks f v,
  ordinary_keyword kw -> toks <> [] -> Forall token (map fst toks) -> separated toks ->
  parse_card (value_record kw f) = Ok (CValue kw v) -> (forall s, v <> VInvalid s) ->
  parse_card (hierarch_record lead toks f) = Ok (CHierarch (dotted (map fst toks)) v).
Proof. exact hierarch_record_proof. Qed.
Print Assumptions C08_hierarch_record.

Theorem C08_hierarch_errors : forall b,
  has_keyword b (chars "HIERARCH") ->
  (~ In 61 (skipn 9 b) \/
   exists name field, skipn 9 b = name ++ 61 :: field /\ Forall white name) ->
  parse_card b = Err EDynamic.
Proof. exact hierarch_errors. Qed.
Print Assumptions C08_hierarch_errors.

Example C08_hierarch_ex :
  hierarch_record 0 [(chars "ESO", 1%nat); (chars "TEL", 1%nat); (chars "FOCU", 1%nat)] (chars " 1.5 / [mm]")
    = padded 80 (chars "HIERARCH ESO TEL FOCU = 1.5 / [mm]") /\
  parse_card (padded 80 (chars "HIERARCH ESO TEL FOCU = 1.5 / [mm]"))
    = Ok (CHierarch (chars "ESO.TEL.FOCU") (VFloat (FDec false 15 (-1)) (Some (chars " [mm]")))) /\
  parse_card (padded 80 (chars "HIERARCH ESO TEL FOCU 1.5")) = Err EDynamic.
Proof. repeat split; vm_compute; reflexivity. Qed.

(** ** C09: XTENSION *)

Theorem C09_xtension_record : forall lead name n1 n2 trail comment,
  Forall printable name -> compact name -> opt_printable comment ->
  parse_card (value_record (chars "XTENSION")
    (value_field lead (fits_string (blanks n1 ++ name ++ blanks n2)) trail comment))
  = if str_eqb name (chars "IMAGE") || str_eqb name (chars "IUEIMAGE")
    then Ok (CXtension XImage (option_map rtrim comment))
    else if str_eqb name (chars "TABLE") then Ok (CXtension XAsciiTable (option_map rtrim comment))
    else if str_eqb name (chars "BINTABLE") then Ok (CXtension XBinTable (option_map rtrim comment))
    else Err (ENotSupportedXt name).
Proof. exact xtension_record. Qed.
Print Assumptions C09_xtension_record.

Example C09_xtension_ex :
  parse_card (padded 80 (chars "XTENSION= 'IMAGE   ' / type")) = Ok (CXtension XImage (Some (chars " type"))) /\
  parse_card (padded 80 (chars "XTENSION= 'FOREIGN '")) = Err (ENotSupportedXt (chars "FOREIGN")).
Proof. split; vm_compute; reflexivity. Qed.

(** ** C10: panics *)

Theorem C10_panic_iff : forall b, octets b -> (parse_card b = Panic <-> lone_quote_record b).
Proof. exact parse_card_panic_iff. Qed.
Print Assumptions C10_panic_iff.

(** The property as stated is false: this 80-byte record panics. *)
Theorem C10_never_panics_refuted : exists b,
  octets b /\ length b = 80%nat /\ parse_card b = Panic.
Proof. exact card_panic_witness. Qed.
Print Assumptions C10_never_panics_refuted.

Example C10_ex :
  parse_card (padded 80 (chars "OBJECT  = '")) = Panic /\
  parse_card (padded 80 (chars "OBJECT  = ' /")) = Err EStatic.
Proof. split; vm_compute; reflexivity. Qed.

(** ** C11: value/comment split *)

Theorem C11_split_unquoted : forall lead body trail comment n,
  compact body -> Forall plain body -> opt_printable comment ->
  split_value_and_comment (padded n (value_field lead body trail comment))
  = Ok (body, option_map rtrim comment).
Proof. exact split_unquoted. Qed.
Print Assumptions C11_split_unquoted.

Theorem C11_split_quoted : forall lead s trail comment n,
  Forall printable s -> opt_printable comment ->
  split_value_and_comment (padded n (value_field lead (fits_string s) trail comment))
  = Ok (39 :: s ++ [39], option_map rtrim comment).
Proof. exact split_quoted. Qed.
Print Assumptions C11_split_quoted.

Example C11_split_ex :
  split_value_and_comment (chars "  1.0 2.0  / a/b 'c'  ") = Ok (chars "1.0 2.0", Some (chars " a/b 'c'")) /\
  value_field 2 (chars "1.0 2.0") 2 (Some (chars " a/b 'c'  ")) = chars "  1.0 2.0  / a/b 'c'  ".
Proof. split; vm_compute; reflexivity. Qed.

(** ** C17: units *)

Theorem C17_unit_iff : forall c u,
  let in_brackets := exists rest, c = Some (91 :: u ++ 93 :: rest) /\ ~ In 93 u in
  (forall i, value_unit (VInteger i c) = Some u <-> in_brackets) /\
  (forall f, value_unit (VFloat f c) = Some u <-> in_brackets) /\
  (forall b, value_unit (VLogical b c) = Some u <-> in_brackets) /\
  (forall s, value_unit (VString s c) = Some u <-> in_brackets) /\
  value_unit VUndefined = None /\ (forall s, value_unit (VInvalid s) = None).
Proof. exact unit_iff. Qed.
Print Assumptions C17_unit_iff.

(** With the layout recommended by the standard, [value / [unit] text], no unit is found. *)
Theorem C17_standard_layout_refuted : forall kw lead s ds trail unit text,
  ordinary_keyword kw -> Forall digit ds -> ds <> [] -> Forall printable unit -> Forall printable text ->
  exists v,
    parse_card (value_record kw (value_field lead (int_literal s ds) trail
                  (Some (chars " [" ++ unit ++ chars "] " ++ text)))) = Ok (CValue kw v) /\
    value_unit v = None.
Proof. exact unit_standard_layout. Qed.
Print Assumptions C17_standard_layout_refuted.

(** Without the blank the unit is found. *)
Theorem C17_tight_layout : forall kw lead s ds trail unit text,
  ordinary_keyword kw -> Forall digit ds -> ds <> [] -> Forall printable unit -> ~ In 93 unit ->
  Forall printable text ->
  exists v,
    parse_card (value_record kw (value_field lead (int_literal s ds) trail
                  (Some (chars "[" ++ unit ++ chars "]" ++ text)))) = Ok (CValue kw v) /\
    value_unit v = Some unit.
Proof. exact unit_tight_layout. Qed.
Print Assumptions C17_tight_layout.

Example C17_unit_ex :
  (let! c := parse_card (padded 80 (chars "EXPTIME = 30 / [s] exposure")) in
   match c with CValue _ v => Ok (value_unit v) | _ => Panic end) = Ok None /\
  (let! c := parse_card (padded 80 (chars "EXPTIME = 30 /[s] exposure")) in
   match c with CValue _ v => Ok (value_unit v) | _ => Panic end) = Ok (Some (chars "s")).
Proof. split; vm_compute; reflexivity. Qed.
