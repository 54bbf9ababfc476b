(** Specification side for panics while headers are read: which bytes of a file bring them about. *)

From Verif Require Import Base Text Card Reader Header Xtension Fits SpecCard SpecHeader SpecXt SpecFits.

(** Before its END record the header at byte [q] has a record whose value is a single quote. *)
Definition quote_header (d : list Z) (q : Z) : Prop :=
  exists recs bad rest,
    skipn (Z.to_nat q) d = concat recs ++ bad ++ rest /\ Forall header_record recs /\
    length bad = 80%nat /\ lone_quote_record bad.

(** At byte [q] is a header of [n] records with END, which opens an HDU of kind [k] and assembles to the
    keyword table [vs]. *)
Definition header_at (d : list Z) (q : Z) (k : hkind) (n : Z) (vs : vmap) : Prop :=
  exists recs last rest c cards,
    skipn (Z.to_nat q) d = concat recs ++ last ++ rest /\ Forall header_record recs /\
    end_record last /\ n = len recs + 1 /\ Forall2 reads_as recs (c :: cards) /\ opens k c /\
    forall m, process_cards m (c :: cards ++ [CEnd]) = Ok vs.

(** The mandatory keywords of a table. *)
Definition table_head (vs : vmap) (n1 n2 pc tf : Z) : Prop :=
  has_int vs (chars "BITPIX") 8 /\ has_int vs (chars "NAXIS") 2 /\
  has_int vs (chars "NAXIS1") n1 /\ u64 n1 /\ has_int vs (chars "NAXIS2") n2 /\ u64 n2 /\
  has_int vs (chars "PCOUNT") pc /\ u64 pc /\ has_int vs (chars "GCOUNT") 1 /\
  has_int vs (chars "TFIELDS") tf /\ u64 tf.

(** Counts for which no vector can be made: 24 bytes per column of an ASCII table, 8 bytes per axis of a
    tile-compressed image, against 2^63 - 1 bytes at most. *)
Definition huge_count (k : hkind) (vs : vmap) : Prop :=
  match k with
  | HAsciiTable => exists n1 n2 tf, table_head vs n1 n2 0 tf /\ 2 ^ 63 <= 24 * tf
  | HBinTable => exists n1 n2 pc tf z,
      table_head vs n1 n2 pc tf /\ has_int vs (chars "ZNAXIS") z /\ u64 z /\ 2 ^ 63 <= 8 * z
  | _ => False
  end.

(** Headers at which every build panics. *)
Definition panics_at (d : list Z) (primary : bool) (q : Z) : Prop :=
  quote_header d q \/
  exists k n vs, (primary = true <-> k = HPrimary) /\ header_at d q k n vs /\ huge_count k vs.

(** Arithmetic beyond 64 bits while a table is described: the heap offset or the width of a row. *)
Definition overflows_early (k : hkind) (vs : vmap) : Prop :=
  k = HBinTable /\ exists n1 n2 pc tf, table_head vs n1 n2 pc tf /\
    ((forall z, has_int vs (chars "THEAP") z -> ~ u64 z) /\ 2 ^ 64 <= n1 * n2 \/
     exists cols, columns (fun i a => column vs i (fst a) (snd a)) (Z.to_nat tf) 1 cols /\
       2 ^ 64 <= total (map (fun a => field_bits (fst a)) cols)).

(** Arithmetic beyond 64 bits while the size of an accepted data unit is computed: for images also when a
    later axis is 0. *)
Definition overflows_late (x : xtension) : Prop :=
  match x with
  | XtImage im =>
      (exists l r, im_naxisn im = l ++ r /\ 2 ^ 64 <= product l) \/
      im_naxisn im <> [] /\ 2 ^ 64 <= Z.abs (bitpix_code (im_bitpix im)) / 8 * product (im_naxisn im)
  | XtAscii t => 2 ^ 64 <= at_naxis1 t * at_naxis2 t
  | XtBin t => 2 ^ 64 <= bt_naxis1 t * bt_naxis2 t + bt_pcount t
  end.

(** Headers at which a checked build panics besides; a size is computed only when the padding of the
    header is there. *)
Definition overflows_at (d : list Z) (primary : bool) (q : Z) : Prop :=
  exists k n vs, (primary = true <-> k = HPrimary) /\ header_at d q k n vs /\
    (overflows_early k vs \/
     exists x, xt_parse Checked (xtype_of k) vs = Ok x /\ q + in_blocks (80 * n) <= len d /\
       overflows_late x).

(** The next call of [next] reads the header at byte [q]: at the start, or with the reader left in the
    data unit before it. *)
Definition comes_to (d : list Z) (f : fits) (q : Z) : Prop :=
  f_error f = false /\ rd_data (f_reader f) = d /\ 0 <= q /\
  (f_start f = true /\ rd_pos (f_reader f) = q \/
   f_start f = false /\ 0 <= f_pos_du f <= rd_pos (f_reader f) /\
   rd_pos (f_reader f) <= f_pos_du f + f_num_du f /\
   q = f_pos_du f + in_blocks (f_num_du f) /\ q < 2 ^ 63).

(** Successive calls of [next], with anything done to the reader in between that leaves it at some
    position; a panic ends the program. *)
Inductive calls (m : mode) : fits -> list item -> fits -> Prop :=
| calls_nil f : calls m f [] f
| calls_panic f p f' : 0 <= p -> next m (moved f p) = (IPanic, f') -> calls m f [IPanic] f'
| calls_next f p i f' l f'' :
    0 <= p -> next m (moved f p) = (i, f') -> i <> IPanic -> calls m f' l f'' -> calls m f (i :: l) f''.
