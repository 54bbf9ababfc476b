(** Specification side for whole files: the layout of HDUs in 2880-byte blocks (FITS standard
    sections 3 and 4.4), and what a caller may do between two calls of [next]. *)

From Verif Require Import Base Text Card Reader Header Xtension Fits SpecCard SpecHeader SpecXt.

(** Length rounded up to whole blocks. *)
Definition in_blocks (n : Z) : Z := (n + 2879) / 2880 * 2880.

(** The data size declared by the keywords, for each kind of HDU. *)
Definition declares (vs : vmap) (k : hkind) (n : Z) : Prop :=
  match k with
  | HPrimary | HImage => exists b axes,
      has_int vs (chars "BITPIX") (bitpix_code b) /\ has_int vs (chars "NAXIS") (len axes) /\
      axes_from vs (chars "NAXIS") 1 axes /\
      (forall l r, axes = l ++ r -> product l < 2 ^ 64) /\
      n = if len axes =? 0 then 0 else Z.abs (bitpix_code b) / 8 * product axes
  | HBinTable => exists n1 n2 pc,
      has_int vs (chars "NAXIS1") n1 /\ has_int vs (chars "NAXIS2") n2 /\
      has_int vs (chars "PCOUNT") pc /\ n = n1 * n2 + pc
  | HAsciiTable => exists n1 n2,
      has_int vs (chars "NAXIS1") n1 /\ has_int vs (chars "NAXIS2") n2 /\ n = n1 * n2
  end.

(** The extension parser of each kind, and the first card. *)
Definition xtype_of (k : hkind) : xtype :=
  match k with HPrimary | HImage => XImage | HBinTable => XBinTable | HAsciiTable => XAsciiTable end.
Definition opens (k : hkind) (c : card) : Prop :=
  match k with
  | HPrimary => exists cm, c = CValue (chars "SIMPLE") (VLogical true cm)
  | _ => exists cm, c = CXtension (xtype_of k) cm
  end.

(** One HDU of a file: header records, END record, padding, data, padding. *)
Record source := mk_source {
  s_records : list (list Z); s_end : list Z; s_hpad : list Z; s_data : list Z; s_dpad : list Z }.
Definition header_bytes (s : source) : list Z := concat (s_records s) ++ s_end s ++ s_hpad s.
Definition hdu_bytes (s : source) : list Z := header_bytes s ++ s_data s ++ s_dpad s.

(** [s] is a well-formed HDU of kind [k], whose header the crate accepts as the table [vs] and the
    description [x]. *)
Definition well_formed (m : mode) (k : hkind) (s : source) (vs : vmap) (x : xtension) : Prop :=
  Forall header_record (s_records s) /\ end_record (s_end s) /\
  len (header_bytes s) = in_blocks (80 * (len (s_records s) + 1)) /\
  len (s_data s ++ s_dpad s) = in_blocks (len (s_data s)) /\
  exists c cards, Forall2 reads_as (s_records s) (c :: cards) /\ opens k c /\
    process_cards m (c :: cards ++ [CEnd]) = Ok vs /\
    xt_parse m (xtype_of k) vs = Ok x /\ declares vs k (len (s_data s)).

Definition accepted (m : mode) (ks : hkind * source) : Prop :=
  exists vs x, well_formed m (fst ks) (snd ks) vs x.

(** A file: a primary HDU, then extensions. *)
Definition file_kinds (hs : list (hkind * source)) : Prop :=
  match hs with
  | [] => False
  | (k, _) :: r => k = HPrimary /\ Forall (fun ks => fst ks <> HPrimary) r
  end.
Definition file_bytes (hs : list (hkind * source)) : list Z :=
  concat (map (fun ks => hdu_bytes (snd ks)) hs).

(** [h] is the HDU read from [s] at byte [start]. *)
Definition read_from (m : mode) (k : hkind) (start : Z) (s : source) (h : hdu) : Prop :=
  h_kind h = k /\
  (exists cards, h_cards h = cards ++ [CEnd] /\ Forall2 reads_as (s_records s) cards) /\
  process_cards m (h_cards h) = Ok (h_values h) /\
  xt_parse m (xtype_of k) (h_values h) = Ok (h_xt h) /\
  h_offset h = start + len (header_bytes s) /\
  hdu_size m h = Ok (len (s_data s)).

(** The items for the HDUs of a file, in order from byte [start] on. *)
Inductive items_for (m : mode) : Z -> list (hkind * source) -> list item -> Prop :=
| items_nil start : items_for m start [] []
| items_cons start k s h rest l :
    read_from m k start s h -> items_for m (start + len (hdu_bytes s)) rest l ->
    items_for m start ((k, s) :: rest) (IOk h :: l).

(** The reader left at position [p] by the caller. *)
Definition moved (f : fits) (p : Z) : fits :=
  mk_fits (f_start f) (f_pos_du f) (f_num_du f) (f_error f) (mk_reader (rd_data (f_reader f)) p).

(** Positions a caller can leave the reader at: untouched, or anywhere in the current data unit. *)
Definition may_leave (f : fits) (p : Z) : Prop :=
  p = rd_pos (f_reader f) \/
  (f_start f = false /\ f_pos_du f <= p <= f_pos_du f + f_num_du f).

(** Successive calls of [next], with data reads in between; a panic ends the program. *)
Inductive yields (m : mode) : fits -> list item -> fits -> Prop :=
| yields_nil f : yields m f [] f
| yields_panic f p f' :
    may_leave f p -> next m (moved f p) = (IPanic, f') -> yields m f [IPanic] f'
| yields_next f p i f' l f'' :
    may_leave f p -> next m (moved f p) = (i, f') -> i <> IPanic -> yields m f' l f'' ->
    yields m f (i :: l) f''.

(** The iterator at the start of a file. *)
Definition opened (d : list Z) : fits := from_reader (mk_reader d 0).

(** The bytes of an XTENSION record of a supported type: quoted name, possibly within blanks. *)
Definition xtension_name (x : xtype) (name : list Z) : Prop :=
  match x with
  | XImage => name = chars "IMAGE" \/ name = chars "IUEIMAGE"
  | XBinTable => name = chars "BINTABLE"
  | XAsciiTable => name = chars "TABLE"
  end.
Definition opening_record (k : hkind) (r : list Z) : Prop :=
  match k with
  | HPrimary =>
      keyword_text r (chars "SIMPLE") /\ firstn 2 (skipn 8 r) = chars "= " /\
      exists w rest, skipn 10 r = w ++ 84 :: rest /\ Forall white w
  | _ =>
      has_keyword r (chars "XTENSION") /\
      exists w i j name rest, skipn 10 r = w ++ 39 :: blanks i ++ name ++ blanks j ++ 39 :: rest /\
        Forall white w /\ xtension_name (xtype_of k) name
  end.

(** Every HDU starts where the block structure says: [start] for the first one, and behind the
    data blocks of its predecessor for the others.  Nothing follows an error or the end. *)
Fixpoint chained (m : mode) (start : Z) (l : list item) : Prop :=
  match l with
  | [] => True
  | IOk h :: r =>
      h_offset h = start + in_blocks (80 * len (h_cards h)) /\ h_offset h mod 2880 = 0 /\
      forall n, hdu_size m h = Ok n -> chained m (h_offset h + in_blocks n) r
  | _ :: r => Forall (fun i => forall h, i <> IOk h) r
  end.
Definition sizes_fit (m : mode) (l : list item) : Prop :=
  forall h n, In (IOk h) l -> hdu_size m h = Ok n -> h_offset h + in_blocks n < 2 ^ 63.
