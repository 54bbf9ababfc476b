(** Specification side for whole files with ASCII tables: what a program that follows the FITS
    standard writes (section 7.2). *)

From Coq Require Import Permutation.
From Verif Require Import Base Text Card Reader Header Xtension Fits.
From Verif Require Import SpecCard SpecHeader SpecXt SpecFits SpecWrite.

(** ** Columns *)

(** A column: its first character (counted from 1), the text of its TFORM keyword and the format
    that text stands for. *)
Record acol := mk_acol { ac_start : Z; ac_text : str; ac_form : atform }.

(** Number of characters of a field. *)
Definition form_width (f : atform) : Z :=
  match f with ACharacter w | ADecimalInteger w | AFixed w _ | AExpE w _ | AExpD w _ => w end.

(** The field lies in the [n1] characters of the row; columns may overlap and come in any order. *)
Definition acol_ok (n1 : Z) (c : acol) : Prop :=
  atform_spelled (ac_form c) (ac_text c) /\ 1 <= ac_start c /\ ac_start c - 1 + form_width (ac_form c) <= n1.

Fixpoint acol_entries (i : Z) (cols : list acol) : list (str * said) :=
  match cols with
  | [] => []
  | c :: r => (indexed (chars "TBCOL") i, SaysInt (ac_start c)) :: (indexed (chars "TFORM") i, SaysText (ac_text c)) ::
              acol_entries (i + 1) r
  end.

Definition ascii_entries (n1 n2 : Z) (cols : list acol) : list (str * said) :=
  [(chars "BITPIX", SaysInt 8); (chars "NAXIS", SaysInt 2); (chars "NAXIS1", SaysInt n1); (chars "NAXIS2", SaysInt n2);
   (chars "PCOUNT", SaysInt 0); (chars "GCOUNT", SaysInt 1); (chars "TFIELDS", SaysInt (len cols))] ++ acol_entries 1 cols.

(** ** Rows *)

(** A row of [n1] characters with these texts in the fields; anything between the fields. *)
Definition arow_written (n1 : Z) (cols : list acol) (cells : list (list Z)) (row : list Z) : Prop :=
  len row = n1 /\ Forall2 (fun c cell => slice row (ac_start c - 1) (form_width (ac_form c)) = cell) cols cells.

(** The table with these columns and cells, written as an extension.  The keywords may come in any
    order. *)
Definition ascii_written (n1 : Z) (cols : list acol) (rows : list (list (list Z))) (s : source) : Prop :=
  exists es parts, len cols <= 999 /\ 0 <= n1 /\ Forall (acol_ok n1) cols /\
    Forall2 (arow_written n1 cols) rows parts /\ s_data s = concat parts /\ len (s_data s) < 2 ^ 63 /\
    Permutation (ascii_entries n1 (len rows) cols) es /\ unit_of HAsciiTable es [] s.

(** ** What a user of the crate can do with the bytes: cut the fields out at the columns it gives *)

Definition fields_at (t : asciitable) (data : list Z) (i : Z) : list (list Z) :=
  map (fun bf => slice data (i * at_naxis1 t + (fst bf - 1)) (form_width (snd bf))) (combine (at_tbcols t) (at_tforms t)).

(** ** A writer *)

Definition spell (f : atform) : str :=
  match f with
  | ACharacter w => 65 :: dec w
  | ADecimalInteger w => 73 :: dec w
  | AFixed w d => 70 :: dec w ++ 46 :: dec d
  | AExpE w d => 69 :: dec w ++ 46 :: dec d
  | AExpD w d => 68 :: dec w ++ 46 :: dec d
  end.
(** One blank after each field. *)
Fixpoint lay_out (start : Z) (fs : list atform) : list acol :=
  match fs with
  | [] => []
  | f :: r => mk_acol start (spell f) f :: lay_out (start + form_width f + 1) r
  end.
Definition row_width (fs : list atform) : Z := fold_right (fun f n => form_width f + 1 + n) 0 fs.
Definition write_arow (cells : list (list Z)) : list Z := concat (map (fun c => c ++ [32]) cells).
Definition listing := (list atform * list (list (list Z)))%type.
Definition write_ascii (x : listing) : source :=
  let '(fs, rows) := x in
  write_unit HAsciiTable (ascii_entries (row_width fs) (len rows) (lay_out 1 fs)) (concat (map write_arow rows)).
Definition write_listings (p : picture) (xs : list listing) : list (hkind * source) :=
  (HPrimary, write_image HPrimary p) :: map (fun x => (HAsciiTable, write_ascii x)) xs.

Definition form_ok (f : atform) : Prop :=
  0 <= form_width f < 2 ^ 31 /\ match f with AFixed _ d | AExpE _ d | AExpD _ d => 0 <= d < 2 ^ 31 | _ => True end.
Definition listing_ok (x : listing) : Prop :=
  len (fst x) <= 999 /\ Forall form_ok (fst x) /\
  Forall (fun r => Forall2 (fun f c => len c = form_width f /\ Forall printable c) (fst x) r) (snd x) /\
  len (snd x) * row_width (fst x) < 2 ^ 62 /\ len (snd x) < 2 ^ 62.
