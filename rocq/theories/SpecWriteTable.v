(** Specification side for whole files with binary tables: what a program that follows the FITS
    standard writes (section 7.3). *)

From Coq Require Import Permutation.
From Verif Require Import Base Text Card Reader Header Xtension Bytes Fits ImageIt BinTable.
From Verif Require Import SpecCard SpecHeader SpecXt SpecFits SpecImage SpecBin SpecWrite.

(** ** Columns *)

(** A column: the text of its TFORM keyword, the format that text stands for, and its name. *)
Record tcolumn := mk_tcolumn { tc_text : str; tc_form : tform; tc_name : option str }.

Definition elem_type (f : tform) : ety := match f with TElem t _ | TDesc32 t | TDesc64 t => t end.

(** Columns the crate reads: not of bits and not without elements (see C32), and no keyword text
    that asks to be continued. *)
Definition column_ok (c : tcolumn) : Prop :=
  tform_spelled (tc_form c) (tc_text c) /\ whole (SaysText (tc_text c)) /\
  elem_type (tc_form c) <> TyX /\ (forall t n, tc_form c = TElem t n -> 1 <= n) /\
  match tc_name c with Some n => whole (SaysText n) | None => True end.

Fixpoint column_entries (i : Z) (cols : list tcolumn) : list (str * said) :=
  match cols with
  | [] => []
  | c :: r =>
    (indexed (chars "TFORM") i, SaysText (tc_text c)) ::
    match tc_name c with Some n => [(indexed (chars "TTYPE") i, SaysText n)] | None => [] end ++
    column_entries (i + 1) r
  end.
(** The TTYPE keywords of the columns without name. *)
Fixpoint unnamed (i : Z) (cols : list tcolumn) : list str :=
  match cols with
  | [] => []
  | c :: r => match tc_name c with Some _ => [] | None => [indexed (chars "TTYPE") i] end ++ unnamed (i + 1) r
  end.

(** ** Cells *)

(** An element.  Of the logicals only T: the crate does not tell F from T (see C37). *)
Definition elem_written (t : ety) (bs v : list Z) : Prop :=
  match t with
  | TyL => v = [1] /\ bs = [84]
  | TyX => False
  | _ => elem_stored t bs v
  end.

(** The bytes of [n]-byte number, most significant first. *)
Definition number_written (n : Z) (v : Z) (bs : list Z) : Prop := octets bs /\ len bs = n /\ be_value bs = v.

(** The bytes in the row of a cell with the elements [vs]; arrays lie anywhere in the heap and are
    not empty (see C36). *)
Definition array_written (heap : list Z) (t : ety) (w : Z) (vs : list (list Z)) (bs : list Z) : Prop :=
  exists b1 b2 p es, bs = b1 ++ b2 /\ number_written w (len vs) b1 /\ number_written w p b2 /\
    vs <> [] /\ Forall2 (elem_written t) es vs /\
    p + len (concat es) <= len heap /\ slice heap p (len (concat es)) = concat es.
Definition cell_written (heap : list Z) (f : tform) (vs : list (list Z)) (bs : list Z) : Prop :=
  match f with
  | TElem t n => len vs = n /\ exists es, Forall2 (elem_written t) es vs /\ bs = concat es
  | TDesc32 t => array_written heap t 4 vs bs
  | TDesc64 t => array_written heap t 8 vs bs
  end.

Inductive row_written (heap : list Z) : list tform -> list (list (list Z)) -> list Z -> Prop :=
| row_end : row_written heap [] [] []
| row_cell f fs vs cells bs rest :
    cell_written heap f vs bs -> row_written heap fs cells rest ->
    row_written heap (f :: fs) (vs :: cells) (bs ++ rest).

(** ** Tables *)

Definition forms (cols : list tcolumn) : list tform := map tc_form cols.

Definition table_entries (n1 n2 pc : Z) (theap : option Z) (cols : list tcolumn) : list (str * said) :=
  [(chars "BITPIX", SaysInt 8); (chars "NAXIS", SaysInt 2); (chars "NAXIS1", SaysInt n1); (chars "NAXIS2", SaysInt n2);
   (chars "PCOUNT", SaysInt pc); (chars "GCOUNT", SaysInt 1); (chars "TFIELDS", SaysInt (len cols))] ++
  match theap with Some h => [(chars "THEAP", SaysInt h)] | None => [] end ++
  column_entries 1 cols.

(** The table with these columns and rows, written as an extension: rows, gap, heap.  The keywords,
    [extra] among them, may come in any order; the keywords [absent] are not there. *)
Definition table_with (extra : list (str * said)) (absent : list str)
  (cols : list tcolumn) (rows : list (list (list (list Z)))) (s : source) : Prop :=
  exists es parts gap heap theap,
    1 <= len cols <= 999 /\ Forall column_ok cols /\ total (map field_bytes (forms cols)) < 2 ^ 60 /\
    Forall2 (row_written heap (forms cols)) rows parts /\
    s_data s = concat parts ++ gap ++ heap /\ len (s_data s) < 2 ^ 63 /\
    (theap = Some (len (concat parts ++ gap)) \/ theap = None /\ gap = []) /\
    Permutation (table_entries (total (map field_bytes (forms cols))) (len rows) (len (gap ++ heap)) theap cols ++ extra) es /\
    unit_of HBinTable es (unnamed 1 cols ++ chars "THEAP" :: absent) s.
(** There is no ZNAXIS: the table is no compressed image. *)
Definition table_written (cols : list tcolumn) (rows : list (list (list (list Z)))) (s : source) : Prop :=
  table_with [] [chars "ZNAXIS"] cols rows s.

(** ** What the reader should give *)

(** The elements of a cell in column [c], numbered. *)
Definition cell_values (t : ety) (c : Z) (vs : list (list Z)) : list dvalue :=
  map (fun p => DVal t (snd p) c (fst p)) (combine (upto (len vs)) vs).
Definition cell_at (fs : list tform) (cells : list (list (list Z))) (c : Z) : list dvalue :=
  match nth_error fs (Z.to_nat c), nth_error cells (Z.to_nat c) with
  | Some f, Some vs => cell_values (elem_type f) c vs
  | _, _ => []
  end.
(** The cells of the columns [sel] of a row. *)
Definition row_values (fs : list tform) (sel : list Z) (cells : list (list (list Z))) : list dvalue :=
  flat_map (cell_at fs cells) sel.

(** Histories of [next] and [seek_to_row] over a table of [n] rows; [from i] are the values from
    row [i] on, [cur] those still to come. *)
Fixpoint seek_spec (n : Z) (from : Z -> list dvalue) (cur : list dvalue) (ops : list table_op) : list table_result :=
  match ops with
  | [] => []
  | TNext :: r => match cur with
                  | [] => TEnd :: seek_spec n from [] r
                  | v :: cur' => TValue v :: seek_spec n from cur' r
                  end
  | TSeek i :: r => if i <? n then TDone :: seek_spec n from (from i) r else TError :: seek_spec n from cur r
  end.
(** No seek in the middle of an array (see C34). *)
Definition outside_array (fs : list tform) (cur : list dvalue) : Prop :=
  match cur with
  | DVal _ _ c i :: _ => match nth_error fs (Z.to_nat c) with Some (TElem _ _) => True | _ => i = 0 end
  | _ => True
  end.
Fixpoint seek_ok (fs : list tform) (n : Z) (from : Z -> list dvalue) (cur : list dvalue) (ops : list table_op) : Prop :=
  match ops with
  | [] => True
  | TNext :: r => seek_ok fs n from (tl cur) r
  | TSeek i :: r => u64 i /\ if i <? n then outside_array fs cur /\ seek_ok fs n from (from i) r
                             else seek_ok fs n from cur r
  end.

(** ** A writer *)

(** The elements of each type that can be written: one number, or two for complex types. *)
Definition elem_ok (t : ety) (v : list Z) : Prop :=
  match t, v with
  | TyL, [x] => x = 1
  | (TyB | TyA), [x] => in_range BU8 x
  | TyI, [x] => in_range BI16 x
  | TyJ, [x] => in_range BI32 x
  | TyK, [x] => in_range BI64 x
  | TyE, [x] => in_range BF32 x
  | TyD, [x] => in_range BF64 x
  | TyC, [x; y] => in_range BF32 x /\ in_range BF32 y
  | TyM, [x; y] => in_range BF64 x /\ in_range BF64 y
  | _, _ => False
  end.
Definition elem_encode (t : ety) (v : list Z) : list Z :=
  match t with
  | TyL => [84]
  | TyX => []
  | TyB | TyA => concat (map (encode BU8) v)
  | TyI => concat (map (encode BI16) v)
  | TyJ => concat (map (encode BI32) v)
  | TyK => concat (map (encode BI64) v)
  | TyE | TyC => concat (map (encode BF32) v)
  | TyD | TyM => concat (map (encode BF64) v)
  end.

(** Fixed cells go into the row, arrays to the end of the heap. *)
Definition write_cell (heap : list Z) (f : tform) (vs : list (list Z)) : list Z * list Z :=
  let bytes := concat (map (elem_encode (elem_type f)) vs) in
  match f with
  | TElem _ _ => (bytes, heap)
  | TDesc32 _ => (encode BI32 (len vs) ++ encode BI32 (len heap), heap ++ bytes)
  | TDesc64 _ => (encode BI64 (len vs) ++ encode BI64 (len heap), heap ++ bytes)
  end.
Fixpoint write_row (heap : list Z) (fs : list tform) (cells : list (list (list Z))) : list Z * list Z :=
  match fs, cells with
  | f :: fs', vs :: cells' =>
    let (b, heap1) := write_cell heap f vs in let (r, heap2) := write_row heap1 fs' cells' in (b ++ r, heap2)
  | _, _ => ([], heap)
  end.
Fixpoint write_rows (heap : list Z) (fs : list tform) (rows : list (list (list (list Z)))) : list (list Z) * list Z :=
  match rows with
  | [] => ([], heap)
  | r :: rows' =>
    let (b, heap1) := write_row heap fs r in let (bs, heap2) := write_rows heap1 fs rows' in (b :: bs, heap2)
  end.

Definition cell_ok (f : tform) (vs : list (list Z)) : Prop :=
  Forall (elem_ok (elem_type f)) vs /\
  match f with
  | TElem _ n => len vs = n
  | TDesc32 _ => vs <> [] /\ len vs < 2 ^ 31
  | TDesc64 _ => vs <> [] /\ len vs < 2 ^ 63
  end.
Definition tabular := (list tcolumn * list (list (list (list Z))))%type.
(** 32-bit descriptors only reach 2^31 bytes of the heap. *)
Definition tabular_ok (x : tabular) : Prop :=
  let (cols, rows) := x in
  1 <= len cols <= 999 /\ Forall column_ok cols /\
  Forall (fun c => sayable (SaysText (tc_text c)) /\
                   match tc_name c with Some n => sayable (SaysText n) | None => True end) cols /\
  total (map field_bytes (forms cols)) < 2 ^ 60 /\
  Forall (fun r => Forall2 cell_ok (forms cols) r) rows /\
  let (parts, heap) := write_rows [] (forms cols) rows in
  len (concat parts ++ heap) < 2 ^ 63 /\ len rows < 2 ^ 63 /\
  ((exists t, In (TDesc32 t) (forms cols)) -> len heap < 2 ^ 31).
(** With further keywords. *)
Definition write_table_with (extra : list (str * said)) (x : tabular) : source :=
  let (cols, rows) := x in
  let (parts, heap) := write_rows [] (forms cols) rows in
  write_unit HBinTable (table_entries (total (map field_bytes (forms cols))) (len rows) (len heap) None cols ++ extra)
             (concat parts ++ heap).
Definition write_table (x : tabular) : source := write_table_with [] x.

(** ** Files of images and tables *)

Inductive content := Picture (p : picture) | Tabular (x : tabular).
(** An HDU that holds it, in any spelling. *)
Definition content_written (c : content) (ks : hkind * source) : Prop :=
  match c with
  | Picture (b, axes, pixels) => image_written (fst ks) b axes pixels (snd ks)
  | Tabular (cols, rows) => fst ks = HBinTable /\ table_written cols rows (snd ks)
  end.
Definition content_ok (c : content) : Prop := match c with Picture p => picture_ok p | Tabular x => tabular_ok x end.
Definition write_content (c : content) : hkind * source :=
  match c with Picture p => (HImage, write_image HImage p) | Tabular x => (HBinTable, write_table x) end.
Definition write_file (p : picture) (cs : list content) : list (hkind * source) :=
  (HPrimary, write_image HPrimary p) :: map write_content cs.

(** What the header of an HDU tells about its content. *)
Definition shown (c : content) (i : item) : Prop :=
  exists h, i = IOk h /\
  match c with
  | Picture (b, axes, _) => h_xt h = XtImage (mk_image b axes)
  | Tabular (cols, rows) =>
    exists t, h_xt h = XtBin t /\ bt_tforms t = forms cols /\ bt_ttypes t = map tc_name cols /\ bt_naxis2 t = len rows
  end.
(** What the reader [f], right after that HDU, gives of it: all the pixels, in any access pattern; all the
    elements of the table in order; all its rows in order. *)
Definition contained (m : mode) (c : content) (i : item) (f : fits) : Prop :=
  exists h, i = IOk h /\
  match c with
  | Picture (b, axes, pixels) =>
    exists id, get_image m f (mk_image b axes) = Ok id /\
      forall ops, Forall op_ok ops -> fst (pixel_run m (id_pixels id) ops) = pixel_spec pixels 0 ops
  | Tabular (cols, rows) =>
    let values := row_values (forms cols) (upto (len cols)) in
    exists t tb, h_xt h = XtBin t /\ get_table m f t = Ok tb /\
      (forall n, fst (table_run m tb (repeat TNext n)) = firstn n (map TValue (flat_map values rows) ++ repeat TEnd n)) /\
      (forall fuel n, (1 <= fuel)%nat -> (forall r, In r rows -> (length (values r) <= fuel)%nat) ->
         row_run m fuel (row_iter tb) n = firstn n (map RowOf (map values rows) ++ repeat RowEnd n))
  end.
