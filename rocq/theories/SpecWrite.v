(** Specification side for whole files: what a program that follows the FITS standard writes
    (sections 3, 4.4, 5 and 7.1), in any spelling the standard allows. *)

From Verif Require Import Base Text Card Reader Header Xtension Fits ImageIt.
From Verif Require Import SpecCard SpecHeader SpecXt SpecFits SpecImage.

(** ** Records *)

(** What a record says about its keyword. *)
Inductive said := SaysInt (n : Z) | SaysText (s : list Z) | SaysLogical (b : bool).

(** [r] is a record that gives [kw] this value: the value anywhere in the field, with or without
    a comment; numbers with or without sign and leading zeros; texts with or without trailing
    blanks. *)
Inductive written (kw : list Z) : said -> list Z -> Prop :=
| written_int lead s ds trail c :
    Forall digit ds -> ds <> [] -> - 2 ^ 63 <= apply_sign s (dec_value ds) < 2 ^ 63 ->
    opt_printable c -> (length (value_field lead (int_literal s ds) trail c) <= 70)%nat ->
    written kw (SaysInt (apply_sign s (dec_value ds)))
      (value_record kw (value_field lead (int_literal s ds) trail c))
| written_text lead t trail c :
    Forall printable t -> opt_printable c ->
    (length (value_field lead (fits_string t) trail c) <= 70)%nat ->
    written kw (SaysText (canonical_string t)) (value_record kw (value_field lead (fits_string t) trail c))
| written_logical lead (b : bool) trail c :
    opt_printable c -> (length (value_field lead [if b then 84%Z else 70%Z] trail c) <= 70)%nat ->
    written kw (SaysLogical b) (value_record kw (value_field lead [if b then 84 else 70] trail c)).

(** No text ends in an ampersand (it would be continued by a CONTINUE record). *)
Definition whole (v : said) : Prop := match v with SaysText s => forall t, s <> t ++ [38] | _ => True end.

(** [r] defines the keyword [n]: in its keyword field or as a HIERARCH keyword of one word. *)
Definition redefines (r n : list Z) : Prop :=
  has_keyword r n \/
  (has_keyword r (chars "HIERARCH") /\
   exists before after, skipn 9 r = before ++ 61 :: after /\ stripped white before n).

(** Any other record: it does not end the header, is no record the crate cannot read at all (C10),
    and leaves the keywords [ns] alone. *)
Definition other (ns : list str) (r : list Z) : Prop :=
  header_record r /\ octets r /\ forall n, In n ns -> ~ redefines r n.

(** The records say what [es] lists, in this order, with other records in between. *)
Inductive header_of (ns : list str) : list (str * said) -> list (list Z) -> Prop :=
| header_none : header_of ns [] []
| header_entry kw v es r rs : written kw v r -> header_of ns es rs -> header_of ns ((kw, v) :: es) (r :: rs)
| header_other es r rs : other ns r -> header_of ns es rs -> header_of ns es (r :: rs).

(** The first record of an HDU of each kind. *)
Definition opening (k : hkind) (r : list Z) : Prop :=
  match k with
  | HPrimary => written (chars "SIMPLE") (SaysLogical true) r
  | HImage => written (chars "XTENSION") (SaysText (chars "IMAGE")) r
  | HBinTable => written (chars "XTENSION") (SaysText (chars "BINTABLE")) r
  | HAsciiTable => written (chars "XTENSION") (SaysText (chars "TABLE")) r
  end.

(** An HDU of kind [k] whose header says [es] and nothing else about the keywords [ns]; whole blocks. *)
Definition unit_of (k : hkind) (es : list (str * said)) (ns : list str) (s : source) : Prop :=
  (exists r rs, s_records s = r :: rs /\ opening k r /\ header_of (map fst es ++ ns) es rs) /\
  end_record (s_end s) /\
  len (header_bytes s) = in_blocks (80 * (len (s_records s) + 1)) /\
  len (s_data s ++ s_dpad s) = in_blocks (len (s_data s)).

(** ** Images (sections 4.4.1 and 7.1) *)

Fixpoint axis_entries (name : str) (i : Z) (axes : list Z) : list (str * said) :=
  match axes with
  | [] => []
  | a :: r => (indexed name i, SaysInt a) :: axis_entries name (i + 1) r
  end.

Definition image_entries (k : hkind) (b : bitpix) (axes : list Z) : list (str * said) :=
  (chars "BITPIX", SaysInt (bitpix_code b)) :: (chars "NAXIS", SaysInt (len axes)) ::
  axis_entries (chars "NAXIS") 1 axes ++
  match k with HPrimary => [] | _ => [(chars "PCOUNT", SaysInt 0); (chars "GCOUNT", SaysInt 1)] end.

(** The image [b], [axes], [pixels] written as an HDU: a primary HDU or an image extension. *)
Definition image_written (k : hkind) (b : bitpix) (axes pixels : list Z) (s : source) : Prop :=
  (k = HPrimary \/ k = HImage) /\ len axes <= 999 /\ Forall (fun a => 0 <= a) axes /\
  (forall l r, axes = l ++ r -> product l < 2 ^ 64) /\
  len pixels = (if len axes =? 0 then 0 else product axes) /\ Forall (in_range b) pixels /\
  unit_of k (image_entries k b axes) [] s /\
  s_data s = concat (map (encode b) pixels).

(** ** A writer *)

(** Fixed format: numbers and logicals end in column 30, texts start in column 11 and have at least
    eight characters. *)
Definition decimal_digits (n : Z) : list Z := map (fun c => c - 48) (dec n).
Definition record_of (kw : str) (v : said) : list Z :=
  value_record kw
    match v with
    | SaysInt n => let lit := int_literal (if n <? 0 then Minus else NoSign) (decimal_digits (Z.abs n)) in
                   value_field (20 - length lit) lit 0 None
    | SaysText s => value_field 0 (fits_string (padded 8 s)) 0 None
    | SaysLogical b => value_field 19 [if b then 84 else 70] 0 None
    end.

(** The values it can write. *)
Definition sayable (v : said) : Prop :=
  match v with
  | SaysInt n => - 2 ^ 63 <= n < 2 ^ 63
  | SaysText s => Forall printable s /\ (exists t c, s = t ++ [c] /\ c <> 32) /\
                  (length (escape_quotes (padded 8 s)) <= 68)%nat
  | SaysLogical _ => True
  end.

Definition head_record (k : hkind) : list Z :=
  match k with
  | HPrimary => record_of (chars "SIMPLE") (SaysLogical true)
  | HImage => record_of (chars "XTENSION") (SaysText (chars "IMAGE"))
  | HBinTable => record_of (chars "XTENSION") (SaysText (chars "BINTABLE"))
  | HAsciiTable => record_of (chars "XTENSION") (SaysText (chars "TABLE"))
  end.

Definition fill (n c : Z) : list Z := repeat c (Z.to_nat (in_blocks n - n)).
Definition write_unit (k : hkind) (es : list (str * said)) (data : list Z) : source :=
  let records := head_record k :: map (fun e => record_of (fst e) (snd e)) es in
  mk_source records (padded 80 (chars "END")) (fill (80 * (len records + 1)) 32) data (fill (len data) 0).

Definition picture := (bitpix * list Z * list Z)%type.
Definition picture_ok (p : picture) : Prop :=
  let '(b, axes, pixels) := p in
  len axes <= 999 /\ Forall (fun a => 0 <= a < 2 ^ 63) axes /\
  (forall l r, axes = l ++ r -> product l < 2 ^ 64) /\
  len pixels = (if len axes =? 0 then 0 else product axes) /\ Forall (in_range b) pixels.
Definition write_image (k : hkind) (p : picture) : source :=
  let '(b, axes, pixels) := p in write_unit k (image_entries k b axes) (concat (map (encode b) pixels)).
Definition write_images (p : picture) (ps : list picture) : list (hkind * source) :=
  (HPrimary, write_image HPrimary p) :: map (fun p => (HImage, write_image HImage p)) ps.
