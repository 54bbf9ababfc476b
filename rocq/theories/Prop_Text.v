(** Header text outside of the character set of the standard (C64).  [kept_char] (in [SpecText]) is what
    is kept of a character. *)

From Verif Require Import Base Utf8 Text Card Header SpecUtf8 SpecCard SpecText.
From Verif Require Import CardProofs3.

(** A quoted string of any characters, in UTF-8: one U+FFFD for every character outside of the set,
    whatever its length in bytes, all else is kept; as for strings of the set (C02) only trailing
    blanks are lost and doubled quotes are one.  The comment is treated the same way once white space
    at its end is removed. *)
Theorem C64_string_any_text : forall kw lead s trail comment kept,
  ordinary_keyword kw -> Forall scalar s ->
  match comment, kept with
  | Some c, Some k => Forall scalar c /\ stripped_right white c k
  | None, None => True
  | _, _ => False
  end ->
  parse_card (value_record kw (utf8_encode (value_field lead (fits_string s) trail comment)))
  = Ok (CValue kw (VString (canonical_string (map kept_char s)) (option_map (map kept_char) kept))).
Proof. exact any_text. Qed.
Print Assumptions C64_string_any_text.

(** Comments of unquoted values. *)
Theorem C64_comment_any_text : forall n lead body trail comment kept,
  compact body -> Forall plain body -> Forall scalar comment -> stripped_right white comment kept ->
  split_value_and_comment (padded n (utf8_encode (value_field lead body trail (Some comment)))) = Ok (body, Some (map kept_char kept)).
Proof. exact any_comment. Qed.
Print Assumptions C64_comment_any_text.

(** In an unquoted value such a character is an error (so the header keeps the record as it is, C07). *)
Theorem C64_unquoted_error : forall kw lead body c rest,
  ordinary_keyword kw -> Forall plain body -> scalar c -> ~ printable c -> ~ white c -> Forall scalar rest ->
  parse_card (value_record kw (utf8_encode (blanks lead ++ body ++ c :: rest))) = Err EStatic.
Proof. exact foreign_text. Qed.
Print Assumptions C64_unquoted_error.

(** "Ca\195\177on d'Or" (with a no-break space) / "5 \194\181m" and a tab *)
Example C64_ex :
  let record := value_record (chars "OBJECT") (utf8_encode (value_field 0 (fits_string [67; 241; 39; 160; 8364; 32]) 1 (Some [32; 53; 181; 9]))) in
  record = padded 80 (chars "OBJECT  = '" ++ [67; 195; 177; 39; 39; 194; 160; 226; 130; 172; 32; 39; 32; 47; 32; 53; 194; 181; 9]) /\
  parse_card record = Ok (CValue (chars "OBJECT") (VString [67; 65533; 39; 65533; 65533] (Some [32; 53; 65533]))) /\
  parse_card (value_record (chars "WIDTH") (utf8_encode [53; 181])) = Err EStatic.
Proof. vm_compute. repeat split. Qed.
