(** Specification side of [fits struct]: the report of a file, from its keywords and its layout. *)

From Verif Require Import Base Text Card Header Xtension Fits SpecCard SpecHeader SpecXt SpecFits.

(** Numbers in decimal, with a separator in between. *)
Inductive listed (sep : str) : list Z -> str -> Prop :=
| listed_one n s : decimal n s -> listed sep [n] s
| listed_more n s l t : decimal n s -> listed sep l t -> listed sep (n :: l) (s ++ sep ++ t).

Definition listed_or (sep none : str) (l : list Z) (s : str) : Prop :=
  l = [] /\ s = none \/ listed sep l s.

(** The Rust name of a pixel type. *)
Definition pixel_name (bits : Z) (s : str) : Prop :=
  bits = 8 /\ s = chars "U8" \/ bits = 16 /\ s = chars "I16" \/ bits = 32 /\ s = chars "I32" \/
  bits = 64 /\ s = chars "I64" \/ bits = -32 /\ s = chars "F32" \/ bits = -64 /\ s = chars "F64".

(** Second and third line of the report of an HDU with the keywords [vs]. *)
Definition describes (k : hkind) (vs : vmap) (type head : str) : Prop :=
  match k with
  | HPrimary | HImage => exists bits axes b a d,
      type = (match k with HPrimary => chars " * HDU type: PRIMARY" | _ => chars " * HDU type: IMAGE" end) /\
      has_int vs (chars "BITPIX") bits /\ pixel_name bits b /\
      has_int vs (chars "NAXIS") (len axes) /\ axes_from vs (chars "NAXIS") 1 axes /\
      listed_or (chars ", ") [] axes a /\ listed_or (chars "x") (chars "0") axes d /\
      head = chars " * HEAD naxis: [" ++ a ++ chars "]; bitpix : " ++ b ++ chars "; dimensions: " ++ d ++ chars "."
  | HBinTable | HAsciiTable => exists cols rows c r,
      type = (match k with HBinTable => chars " * HDU type: BINTABLE" | _ => chars " * HDU type: ASCIITABLE" end) /\
      has_int vs (chars "TFIELDS") cols /\ decimal cols c /\
      has_int vs (chars "NAXIS2") rows /\ decimal rows r /\
      head = chars " * HEAD n_cols: " ++ c ++ chars "; n_rows: " ++ r ++ chars "."
  end.

(** The report of the HDUs [hs] of a file, numbered from [i] on, the first one at byte [start]. *)
Inductive report (m : mode) : Z -> Z -> list (hkind * source) -> list str -> Prop :=
| report_nil i start : report m i start [] []
| report_cons i start k s rest lines vs cards c type head no first size :
    Forall2 reads_as (s_records s) (c :: cards) -> process_cards m (c :: cards ++ [CEnd]) = Ok vs ->
    describes k vs type head ->
    decimal i no -> decimal (start + len (header_bytes s)) first -> decimal (len (s_data s)) size ->
    report m (i + 1) (start + len (hdu_bytes s)) rest lines ->
    report m i start ((k, s) :: rest)
      ((chars "HDU[" ++ no ++ chars "]:") :: type :: head ::
       (chars " * DATA starting byte: " ++ first ++ chars "; byte size: " ++ size ++ chars ".") :: lines).
