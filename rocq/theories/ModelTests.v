(** The unit tests of the crate that need no sample file, run on the model: evidence that the model
    does what the code does (tests, not proofs).  Each example names the Rust test. *)

From Coq Require Import String List.
From Verif Require Import Base Utf8 Text Card Reader Header Xtension Fits SpecCard.
Local Open Scope string_scope.
Local Open Scope list_scope.
Local Open Scope Z_scope.

(** A string literal of the Rust source: its bytes, and its characters. *)
Definition b (s : string) : list Z := chars s.
Definition u (s : string) : str := match from_utf8 (b s) with Some t => t | None => [] end.
Definition c (s : string) : option str := Some (u s).

Definition is_err {A} (x : res A) : bool := match x with Err EStatic => true | _ => false end.

(** [src/card.rs], [strings]. *)
Example test_strings :
  parse_string (u "''") = Ok (u "") /\
  parse_string (u "") = Ok (u "") /\
  parse_string (u "' '") = Ok (u " ") /\
  parse_string (u " ") = Ok (u " ") /\
  parse_string (u "'     '") = Ok (u " ") /\
  parse_string (u "        ") = Ok (u " ") /\
  parse_string (u "'some string'") = Ok (u "some string") /\
  parse_string (u "'some string   '") = Ok (u "some string") /\
  parse_string (u "some string   ") = Ok (u "some string") /\
  parse_string (u "''some' 'string''") = Ok (u "'some' 'string'") /\
  parse_string (u "'    some string'") = Ok (u "    some string") /\
  parse_string (u "    some string") = Ok (u "    some string") /\
  is_err (parse_string (u "'missing end quote")) = true /\
  is_err (parse_string (u "missing start quote'")) = true.
Proof. vm_compute. repeat split. Qed.

(** [src/card.rs], [number_values]: 42, 42., .42, 4E2, 4D2. *)
Example test_number_values :
  parse_number (u "42") None = Ok (VInteger 42 None) /\
  parse_number (u "42.") None = Ok (VFloat (FDec false 42 0) None) /\
  parse_number (u ".42") None = Ok (VFloat (FDec false 42 (-2)) None) /\
  parse_number (u "4E2") None = Ok (VFloat (FDec false 4 2) None) /\
  parse_number (u "4D2") None = Ok (VFloat (FDec false 4 2) None).
Proof. vm_compute. repeat split. Qed.

(** [src/card.rs], [forward_slash], [invalid_characters], [string_tic_escape]. *)
Example test_value_comment :
  split_value_and_comment (b "'String value without comment'") = Ok (u "'String value without comment'", None) /\
  split_value_and_comment (b "'' / Comment with null string") = Ok (u "''", c " Comment with null string") /\
  split_value_and_comment (b "' ' / Comment with empty string") = Ok (u "' '", c " Comment with empty string") /\
  split_value_and_comment (b "'String value ' / and a comment") = Ok (u "'String value '", c " and a comment") /\
  split_value_and_comment (b "'String value with embedded /' / and a comment") = Ok (u "'String value with embedded /'", c " and a comment") /\
  split_value_and_comment (b "    'Free-string'     /   with comment") = Ok (u "'Free-string'", c "   with comment") /\
  split_value_and_comment (b "'String with 
 newline'") = Ok (u "'String with � newline'", None) /\
  split_value_and_comment (b "'😈' / The devil is in the details!") = Ok (u "'�'", c " The devil is in the details!") /\
  split_value_and_comment (b "''Just' smile 😀' / with 
 newline and 	 tab in comment") = Ok (u "''Just' smile �'", c " with � newline and � tab in comment") /\
  split_value_and_comment (b "'Escaped ''tics''' / comment") = Ok (u "'Escaped 'tics''", c " comment").
Proof. vm_compute. repeat split. Qed.

(** [src/card.rs], [comment_card], [trailing_ampersand], [xtension_card], [empty_keyword_card],
    [undefined_card], [string_value_trimming], [logic_value], [hierarch_keyword_record]. *)
Example test_cards :
  parse_card (b "COMMENT comment starts / ends here...
                                          ") = Ok (CComment (u "comment starts / ends here...�")) /\
  parse_card (b "STRKEY  = 'Trailing ampersand should be preserved&'                             ") = Ok (CValue (u "STRKEY") (VString (u "Trailing ampersand should be preserved&") None)) /\
  parse_card (b "XTENSION= 'TABLE   ' / an extension table                                       ") = Ok (CXtension XAsciiTable (c " an extension table")) /\
  parse_empty_keyword_card (b "        empty header comment with an illegal 	 tab and 
 newline                ") = CComment (u "empty header comment with an illegal � tab and � newline") /\
  parse_empty_keyword_card (b "                                                                                ") = CSpace /\
  parse_card (b "SOMEKEY   which is not a value as it does not have '= ' at pos 9 and 10         ") = Ok (CUndefined (u "SOMEKEY   which is not a value as it does not have '= ' at pos 9 and 10         ")) /\
  parse_card (b "STRKEY  = 'Trailing space should be removed.         '                          ") = Ok (CValue (u "STRKEY") (VString (u "Trailing space should be removed.") None)) /\
  parse_card (b "STRKEY  = '       Leading space should be preserved.'                           ") = Ok (CValue (u "STRKEY") (VString (u "       Leading space should be preserved.") None)) /\
  parse_card (b "STRKEY  = ''                                                                    ") = Ok (CValue (u "STRKEY") (VString (u "") None)) /\
  parse_card (b "STRKEY  = '        '                                                            ") = Ok (CValue (u "STRKEY") (VString (u " ") None)) /\
  parse_card (b "STRKEY  =                    T / a true statement!                              ") = Ok (CValue (u "STRKEY") (VLogical true (c " a true statement!"))) /\
  parse_card (b "HIERARCH ESO TEL FOCU SCALE = 1.489 / (deg/m) Focus length = 5.36""/mm           ") = Ok (CHierarch (u "ESO.TEL.FOCU.SCALE") (VFloat (FDec false 1489 (-3)) (c " (deg/m) Focus length = 5.36""/mm"))).
Proof. vm_compute. repeat split. Qed.

(** [src/card.rs], [long_string_value]. *)
Example test_long_string :
  forall m,
  (let splice a r := let! x := a in let! y := parse_card (b r) in card_append m x y in
   splice (splice (splice (splice (parse_card (b "STRKEY  = 'This keyword value is continued&'                                    "))
     "CONTINUE ' over multiple keyword cards. &'                                      ")
     "CONTINUE '&' / The comment field for this                                       ")
     "CONTINUE '&' / keyword is also continued                                        ")
     "CONTINUE '' / over multiple cards.                                              ")
  = Ok (CValue (u "STRKEY") (VString (u "This keyword value is continued over multiple keyword cards.")
      (Some (u " The comment field for this" ++ [10] ++ u " keyword is also continued" ++ [10] ++ u " over multiple cards.")))).
Proof. intros []; vm_compute; reflexivity. Qed.

(** [mock_fits_data]. *)
Definition mock (cards : list string) : list Z := padded 2880 (List.concat (map b cards)).
Definition first_cards (d : list Z) : option (list card) :=
  match next Checked (from_reader (mk_reader d 0)) with
  | (IOk h, _) => match h_kind h with HPrimary => Some (h_cards h) | _ => None end
  | _ => None
  end.

(** [src/hdu/header/mod.rs], [card_keyword]. *)
Example test_card_keyword :
  check_card_keyword (b "STRKEY  = 'Some text'                                                           ") (b "STRKEY  ") = Ok (VString (u "Some text") None).
Proof. vm_compute. repeat split. Qed.

(** [src/hdu/header/mod.rs], [primary_hdu_without_simple_keyword]. *)
Example test_without_simple :
  fst (next Checked (from_reader (mk_reader (mock ["WRONGKW =                    T / this is a fake FITS file                       ";
    "BITPIX  =                    8 / byte sized numbers                             ";
    "NAXIS   =                    0 / no data arrays                                 ";
    "END                                                                             "]) 0))) = IErr EDynamic.
Proof. vm_compute. repeat split. Qed.

(** [src/hdu/header/mod.rs], [end_card_not_found]. *)
Example test_end_not_found :
  fst (run Checked 2 (from_reader (mk_reader (mock ["SIMPLE  =                    T / Standard FITS Format                           ";
    "BITPIX  =                    8 / Character data                                 ";
    "NAXIS   =                    0 / No Image --- just extension(s)                 ";
    "EXTEND  =                    T / There are standard extensions                  "]) 0))) = [IErr EEof; INone].
Proof. vm_compute. repeat split. Qed.

(** [src/hdu/header/mod.rs], [primary_hdu_with_no_data]. *)
Definition no_data_cards := first_cards (mock ["SIMPLE  =                    T / this is a fake FITS file                       ";
    "BITPIX  =                    8 / byte sized numbers                             ";
    "NAXIS   =                    0 / no data arrays                                 ";
    "COMMENT some contextual comment on the header                                   ";
    "COMMENT ... over two lines                                                      ";
    "HISTORY this was processed manually using vscode                                ";
    "COMMENT comment on the history?                                                 ";
    "HISTORY did some more processing...                                             ";
    "END                                                                             "]).
Example test_no_data :
  no_data_cards = Some
  [CValue (u "SIMPLE") (VLogical true (c " this is a fake FITS file"));
   CValue (u "BITPIX") (VInteger 8 (c " byte sized numbers"));
   CValue (u "NAXIS") (VInteger 0 (c " no data arrays"));
   CComment (u "some contextual comment on the header"); CComment (u "... over two lines");
   CHistory (u "this was processed manually using vscode"); CComment (u "comment on the history?");
   CHistory (u "did some more processing..."); CEnd] /\
  option_map history no_data_cards = Some
  [u "this was processed manually using vscode"; u "did some more processing..."].
Proof. vm_compute. repeat split. Qed.

(** [src/hdu/header/mod.rs], [blank_interpreted_as_comments]. *)
Example test_blank_comments :
  option_map (firstn 17) (first_cards (mock ["SIMPLE  =                    T / Standard FITS Format                           ";
    "BITPIX  =                    8 / Character data                                 ";
    "NAXIS   =                    0 / No Image --- just extension(s)                 ";
    "EXTEND  =                    T / There are standard extensions                  ";
    "ORIGIN  = 'xml2fits_v1.95'     / Converted from XML-Astrores to FITS            ";
    "                        e-mail: question@simbad.u-strasbg.fr                    ";
    "LONGSTRN= 'OGIP 1.0'           / Long string convention (&/CONTINUE) may be used";
    "DATE    = '2018-04-12'         / Written on 2018-04-12:13:25:09 (GMT)           ";
    "                            by: apache@vizier.u-strasbg.fr                      ";
    "        **********************************************************              ";
    "            EXCERPT from catalogues stored in VizieR (CDS)                      ";
    "                        with the following conditions:                          ";
    "        **********************************************************              ";
    "                                                                                ";
    "        VizieR Astronomical Server vizier.u-strasbg.fr                          ";
    "        Date: 2018-04-12T13:25:09 [V1.99+ (14-Oct-2013)]                        ";
    "        In case of problem, please report to: cds-question@unistra.fr           ";
    "                                                                                ";
    "INFO    = 'votable-version=1.99+ (14-Oct-2013)' / #                             ";
    "INFO    = '-ref=VIZ5acf5dfe7d66' / #                                            ";
    "INFO    = '-out.max=50'        / #                                              ";
    "END                                                                             "])) = Some
  [CValue (u "SIMPLE") (VLogical true (c " Standard FITS Format"));
   CValue (u "BITPIX") (VInteger 8 (c " Character data"));
   CValue (u "NAXIS") (VInteger 0 (c " No Image --- just extension(s)"));
   CValue (u "EXTEND") (VLogical true (c " There are standard extensions"));
   CValue (u "ORIGIN") (VString (u "xml2fits_v1.95") (c " Converted from XML-Astrores to FITS"));
   CComment (u "                e-mail: question@simbad.u-strasbg.fr");
   CValue (u "LONGSTRN") (VString (u "OGIP 1.0") (c " Long string convention (&/CONTINUE) may be used"));
   CValue (u "DATE") (VString (u "2018-04-12") (c " Written on 2018-04-12:13:25:09 (GMT)"));
   CComment (u "                    by: apache@vizier.u-strasbg.fr");
   CComment (u "**********************************************************");
   CComment (u "    EXCERPT from catalogues stored in VizieR (CDS)");
   CComment (u "                with the following conditions:");
   CComment (u "**********************************************************");
   CSpace;
   CComment (u "VizieR Astronomical Server vizier.u-strasbg.fr");
   CComment (u "Date: 2018-04-12T13:25:09 [V1.99+ (14-Oct-2013)]");
   CComment (u "In case of problem, please report to: cds-question@unistra.fr")].
Proof. vm_compute. repeat split. Qed.
