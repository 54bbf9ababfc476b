(** Properties of binary table data (C28, C29, C32-C37, C53).  [get_table] is the model of
    [Fits::get_data], [table_run] a series of [next] and [seek_to_row] calls on the table iterator,
    [select_fields] the column selection, [row_run] a series of [next] calls on the row iterator;
    [SpecBin] holds the specification side. *)

From Coq Require Import String List.
From Verif Require Import Base Utf8 Text Card Reader Header Xtension Bytes Fits ImageIt BinTable.
From Verif Require Import SpecUtf8 SpecCard SpecHeader SpecXt SpecFits SpecImage SpecBin.
From Verif Require Import HeaderProofs FitsProofs4 BinProofs3 Prop_Fits.
Local Open Scope string_scope.
Local Open Scope list_scope.
Local Open Scope Z_scope.

(** ** Example files: an empty primary HDU and a binary table *)

Definition ex_empty : source := ex_source ["SIMPLE  = T"; "BITPIX  = 8"; "NAXIS   = 0"] [].
Definition ex_table_file (lines : list string) (data : list Z) : list Z :=
  file_bytes [(HPrimary, ex_empty);
              (HBinTable, ex_source (["XTENSION= 'BINTABLE'"; "BITPIX  = 8"; "NAXIS   = 2"; "GCOUNT  = 1"] ++ lines) data)].
Definition ex_find (m : mode) (d : list Z) : option (bintable * Z * table) :=
  match next m (snd (next m (opened d))) with
  | (IOk h, f') => match h_xt h with
                   | XtBin t => match get_table m f' t with Ok s => Some (t, h_offset h, s) | _ => None end
                   | _ => None
                   end
  | _ => None
  end.
Lemma ex_found m d t o s :
  octetsb d = true -> rd_data (f_reader (snd (next m (opened d)))) = d ->
  0 <= rd_pos (f_reader (snd (next m (opened d)))) -> ex_find m d = Some (t, o, s) -> found m d t o s.
Proof.
  intros O D P E. split; [apply octetsb_ok; exact O|]. unfold ex_find in E.
  exists (snd (next m (opened d))). revert E.
  destruct (next m (snd (next m (opened d)))) as [i f'] eqn:N. destruct i as [|h| |]; try discriminate.
  destruct (h_xt h) as [| |t'] eqn:X; try discriminate. destruct (get_table m f' t') as [s'| |] eqn:G; try discriminate.
  intro E. inversion E; subst. exists h, f'. auto 10.
Qed.

(** Run the model on a file and check all the facts at once. *)
Lemma ex_run m d (P : bintable -> Z -> table -> Prop) :
  octetsb d = true -> rd_data (f_reader (snd (next m (opened d)))) = d ->
  0 <= rd_pos (f_reader (snd (next m (opened d)))) ->
  match ex_find m d with Some (t, o, s) => P t o s | None => False end ->
  exists t o s, found m d t o s /\ P t o s.
Proof.
  intros O D Q H. destruct (ex_find m d) as [[[t o] s]|] eqn:E; [|contradiction].
  exists t, o, s. split; [apply ex_found; auto|exact H].
Qed.
Ltac ex_check :=
  let m := fresh in intro m;
  apply ex_run;
    [vm_compute; reflexivity|destruct m; vm_compute; reflexivity|destruct m; vm_compute; discriminate|
     destruct m; vm_compute; repeat (split || constructor); intros; discriminate].

(** ** C32: iteration over all cells *)

(** Row by row, column by column, item by item, each value once, then the end for ever. *)
Theorem C32_cells : forall m d f h f' t,
  octets d -> rd_data (f_reader f) = d -> 0 <= rd_pos (f_reader f) -> next m f = (IOk h, f') ->
  h_xt h = XtBin t -> table_inside d t (h_offset h) ->
  bt_tforms t <> [] -> Forall fixed_width (bt_tforms t) ->
  exists s cells, get_table m f' t = Ok s /\
    Forall2 (slot_value d) (slots_from d t (h_offset h) true (all_columns t) 0) cells /\
    forall n, fst (table_run m s (repeat TNext n)) = firstn n (map TValue cells ++ repeat TEnd n).
Proof. exact fixed_cells. Qed.
Print Assumptions C32_cells.

(** Two rows of a logical, two 16-bit integers and a character. *)
Definition ex_fixed : list Z :=
  ex_table_file ["NAXIS1  = 6"; "NAXIS2  = 2"; "PCOUNT  = 0"; "TFIELDS = 3"; "TFORM1  = 'L'"; "TTYPE1  = 'FLAG'";
                 "TFORM2  = '2I'"; "TTYPE2  = 'XY'"; "TFORM3  = '1A'"]
                [84; 0; 1; 255; 254; 65;   0; 1; 0; 0; 7; 66].

Example C32_ex : forall m,
  exists t o s, found m ex_fixed t o s /\ table_inside ex_fixed t o /\ Forall fixed_width (bt_tforms t) /\
    bt_tforms t = [TElem TyL 1; TElem TyI 2; TElem TyA 1] /\
    slots_from ex_fixed t o true (all_columns t) 0
    = [SElem TyL 5760 0 0; SElem TyI 5761 1 0; SElem TyI 5763 1 1; SElem TyA 5765 2 0;
       SElem TyL 5766 0 0; SElem TyI 5767 1 0; SElem TyI 5769 1 1; SElem TyA 5771 2 0] /\
    fst (table_run m s (repeat TNext 10))
    = map TValue [DVal TyL [1] 0 0; DVal TyI [1] 1 0; DVal TyI [-2] 1 1; DVal TyA [65] 2 0;
                  DVal TyL [0] 0 0; DVal TyI [256] 1 0; DVal TyI [7] 1 1; DVal TyA [66] 2 0] ++ [TEnd; TEnd].
Proof. ex_check. Qed.

(** Columns of bits: a table the crate accepts, whose third byte, a column of its own, is read as
    a third byte of bits; the second column of the first row then gets the value of the second row,
    and iteration ends there. *)
Definition ex_bits : list Z :=
  ex_table_file ["NAXIS1  = 3"; "NAXIS2  = 2"; "PCOUNT  = 0"; "TFIELDS = 2"; "TFORM1  = '16X'"; "TFORM2  = 'B'"]
                [1; 2; 3;   4; 5; 6].
Theorem C32_bits_refuted : forall m,
  exists t o s, found m ex_bits t o s /\ table_inside ex_bits t o /\
    bt_tforms t = [TElem TyX 16; TElem TyB 1] /\ slice ex_bits o 6 = [1; 2; 3; 4; 5; 6] /\
    fst (table_run m s (repeat TNext 9))
    = map TValue [DVal TyX [1] 0 0; DVal TyX [2] 0 1; DVal TyX [3] 0 2; DVal TyB [6] 1 0] ++ repeat TEnd 5.
Proof. ex_check. Qed.
Print Assumptions C32_bits_refuted.

(** Columns without elements: a value is read all the same, from the bytes of the next column. *)
Definition ex_zero : list Z :=
  ex_table_file ["NAXIS1  = 2"; "NAXIS2  = 1"; "PCOUNT  = 0"; "TFIELDS = 2"; "TFORM1  = '0I'"; "TFORM2  = '2B'"] [7; 8].
Theorem C32_no_elements_refuted : forall m,
  exists t o s, found m ex_zero t o s /\ table_inside ex_zero t o /\
    bt_tforms t = [TElem TyI 0; TElem TyB 2] /\
    slots_from ex_zero t o true (all_columns t) 0 = [SElem TyB o 1 0; SElem TyB (o + 1) 1 1] /\
    fst (table_run m s (repeat TNext 4)) = [TValue (DVal TyI [1800] 0 0); TEnd; TEnd; TEnd].
Proof. ex_check. Qed.
Print Assumptions C32_no_elements_refuted.

(** A table without columns: [next] panics. *)
Definition ex_no_columns : list Z :=
  ex_table_file ["NAXIS1  = 0"; "NAXIS2  = 0"; "PCOUNT  = 0"; "TFIELDS = 0"] [].
Theorem C32_no_columns_refuted : forall m,
  exists t o s, found m ex_no_columns t o s /\ table_inside ex_no_columns t o /\ bt_tforms t = [] /\
    fst (table_run m s [TNext]) = [TPanic].
Proof. ex_check. Qed.
Print Assumptions C32_no_columns_refuted.

(** ** C33: column selection *)

(** [sel] are the columns asked for.  Iteration, rows, and every history beginning with [next]. *)
Theorem C33_selected_columns : forall m d f h f' t,
  octets d -> rd_data (f_reader f) = d -> 0 <= rd_pos (f_reader f) -> next m f = (IOk h, f') ->
  h_xt h = XtBin t -> table_inside d t (h_offset h) ->
  forall lim ids sel,
  lim <= len d -> columns_readable d lim t (h_offset h) true sel -> sel <> [] -> 1 <= bt_naxis2 t ->
  Forall id_ok ids -> distinct t ids -> selection t ids sel ->
  exists s cells rows, get_table m f' t = Ok s /\
    Forall2 (slot_value d) (slots_from d t (h_offset h) true sel 0) cells /\
    (forall n, fst (table_run m (select_fields s ids) (repeat TNext n)) = firstn n (map TValue cells ++ repeat TEnd n)) /\
    Forall2 (fun i cells => Forall2 (slot_value d) (row_slots d t (h_offset h) true sel i) cells) (rows_from t 0) rows /\
    (forall fuel n, (1 <= fuel)%nat ->
      (forall i, In i (rows_from t 0) -> (List.length (row_slots d t (h_offset h) true sel i) <= fuel)%nat) ->
      row_run m fuel (row_iter (select_fields s ids)) n = firstn n (map RowOf rows ++ repeat RowEnd n)) /\
    forall ops, proper t (slots_from d t (h_offset h) true sel) (slots_from d t (h_offset h) true sel 0) (TNext :: ops) ->
      history d t (slots_from d t (h_offset h) true sel) (slots_from d t (h_offset h) true sel 0) (TNext :: ops)
              (fst (table_run m (select_fields s ids) (TNext :: ops))).
Proof. exact table_selected. Qed.
Print Assumptions C33_selected_columns.

(** Names and numbers, in any order, unknown ones ignored. *)
Definition ex_ids : list column_id := [CIndex 2; CName (chars "XY"); CName (chars "NONE"); CIndex 17].
Example C33_ex : forall m,
  exists t o s, found m ex_fixed t o s /\ table_inside ex_fixed t o /\ selectionb t ex_ids = true /\
    selection_of t ex_ids = [1; 2] /\ columns_readableb ex_fixed (len ex_fixed) t o true [1; 2] = true /\
    bt_naxis2 t = 2 /\
    fst (table_run m (select_fields s ex_ids) (repeat TNext 7))
    = map TValue [DVal TyI [1] 1 0; DVal TyI [-2] 1 1; DVal TyA [65] 2 0;
                  DVal TyI [256] 1 0; DVal TyI [7] 1 1; DVal TyA [66] 2 0] ++ [TEnd] /\
    row_run m 3 (row_iter (select_fields s ex_ids)) 3
    = [RowOf [DVal TyI [1] 1 0; DVal TyI [-2] 1 1; DVal TyA [65] 2 0];
       RowOf [DVal TyI [256] 1 0; DVal TyI [7] 1 1; DVal TyA [66] 2 0]; RowEnd] /\
    fst (table_run m (select_fields s ex_ids) [TNext; TSeek 1; TNext; TSeek 2; TSeek 0; TNext; TNext; TNext])
    = [TValue (DVal TyI [1] 1 0); TDone; TValue (DVal TyI [256] 1 0); TError; TDone;
       TValue (DVal TyI [1] 1 0); TValue (DVal TyI [-2] 1 1); TValue (DVal TyA [65] 2 0)].
Proof. ex_check. Qed.

(** A column asked for twice: its second reading comes from the next row, and later ones from
    beyond the table. *)
Theorem C33_twice_refuted : forall m,
  exists t o s, found m ex_fixed t o s /\ table_inside ex_fixed t o /\
    fst (table_run m (select_fields s [CIndex 2; CIndex 2]) (repeat TNext 4))
    = [TValue (DVal TyA [65] 2 0); TValue (DVal TyA [66] 2 0); TValue (DVal TyA [0] 2 0);
       match m with Checked => TPanic | Wrapping => TValue (DVal TyA [0] 2 0) end].
Proof. ex_check. Qed.
Print Assumptions C33_twice_refuted.

(** Nothing asked for (or nothing that exists): [next] panics. *)
Theorem C33_empty_refuted : forall m,
  exists t o s, found m ex_fixed t o s /\ table_inside ex_fixed t o /\
    fst (table_run m (select_fields s [CName (chars "NONE")]) [TNext]) = [TPanic].
Proof. ex_check. Qed.
Print Assumptions C33_empty_refuted.

(** A selection followed by [seek_to_row]: the column offset is added twice. *)
Theorem C33_seek_first_refuted : forall m,
  exists t o s, found m ex_fixed t o s /\ table_inside ex_fixed t o /\
    fst (table_run m (select_fields s [CIndex 2]) [TSeek 0; TNext]) = [TDone; TValue (DVal TyA [7] 2 0)].
Proof. ex_check. Qed.
Print Assumptions C33_seek_first_refuted.

(** A selection after part of a row was read. *)
Theorem C33_late_refuted : forall m,
  exists t o s, found m ex_fixed t o s /\ table_inside ex_fixed t o /\
    fst (table_run m (select_fields (snd (table_run m s [TNext; TNext; TNext])) [CIndex 0]) [TNext]) = [TPanic] /\
    fst (table_run m (select_fields (snd (table_run m s [TNext; TNext])) [CIndex 0; CIndex 2]) [TNext])
    = [TValue (DVal TyA [0] 2 1)].
Proof. ex_check. Qed.
Print Assumptions C33_late_refuted.

(** A table without rows: values are read from what follows, or the call panics. *)
Definition ex_no_rows : list Z :=
  ex_table_file ["NAXIS1  = 2"; "NAXIS2  = 0"; "PCOUNT  = 4"; "TFIELDS = 2"; "TFORM1  = 'B'"; "TFORM2  = 'B'"] [1; 2; 3; 4].
Theorem C33_no_rows_refuted : forall m,
  exists t o s, found m ex_no_rows t o s /\ table_inside ex_no_rows t o /\ bt_naxis2 t = 0 /\
    fst (table_run m (select_fields s [CIndex 1]) [TNext])
    = [match m with Checked => TPanic | Wrapping => TValue (DVal TyB [2] 1 0) end].
Proof. ex_check. Qed.
Print Assumptions C33_no_rows_refuted.

(** ** C34: seeking to a row *)

(** Every history of [next] and [seek_to_row] calls in which no seek is made in the middle of an
    array of the heap: an index in range restarts at that row, another one changes nothing. *)
Theorem C34_seek_to_row : forall m d f h f' t,
  octets d -> rd_data (f_reader f) = d -> 0 <= rd_pos (f_reader f) -> next m f = (IOk h, f') ->
  h_xt h = XtBin t -> table_inside d t (h_offset h) ->
  forall lim, lim <= len d ->
  columns_readable d lim t (h_offset h) true (all_columns t) -> bt_tforms t <> [] ->
  exists s, get_table m f' t = Ok s /\ forall ops,
    let from := slots_from d t (h_offset h) true (all_columns t) in
    proper t from (from 0) ops -> history d t from (from 0) ops (fst (table_run m s ops)).
Proof. exact table_history. Qed.
Print Assumptions C34_seek_to_row.

(** A table with arrays: a 16-bit integer and a descriptor of an array of 32-bit integers. *)
Definition ex_vla (n2 : Z) : list Z :=
  ex_table_file ["NAXIS1  = 10"; "NAXIS2  = 2"; "PCOUNT  = 12"; "TFIELDS = 2"; "TFORM1  = 'I'"; "TFORM2  = '1PJ(2)'"]
                ([0; 9;   0; 0; 0; 2;  0; 0; 0; 4;     0; 8;   0; 0; 0; n2;  0; 0; 0; 0] ++
                 [0; 0; 0; 5;   0; 0; 0; 6;   255; 255; 255; 255]).

Example C34_ex : forall m,
  exists t o s, found m (ex_vla 1) t o s /\ table_inside (ex_vla 1) t o /\
    columns_readableb (ex_vla 1) (len (ex_vla 1)) t o true (all_columns t) = true /\
    bt_tforms t = [TElem TyI 1; TDesc32 TyJ] /\
    (let ops := [TNext; TNext; TNext; TSeek 1; TNext; TNext; TNext; TSeek 0; TNext; TSeek 2; TNext] in
     let from := slots_from (ex_vla 1) t o true (all_columns t) in
     proper t from (from 0) ops /\
     fst (table_run m s ops)
     = [TValue (DVal TyI [9] 0 0); TValue (DVal TyJ [6] 1 0); TValue (DVal TyJ [-1] 1 1); TDone;
        TValue (DVal TyI [8] 0 0); TValue (DVal TyJ [5] 1 0); TEnd; TDone; TValue (DVal TyI [9] 0 0); TError;
        TValue (DVal TyJ [6] 1 0)]).
Proof. ex_check. Qed.

(** In the middle of an array the seek goes astray: the values that follow are not those of the
    row. *)
Theorem C34_mid_array_refuted : forall m,
  exists t o s, found m (ex_vla 1) t o s /\ table_inside (ex_vla 1) t o /\
    columns_readableb (ex_vla 1) (len (ex_vla 1)) t o true (all_columns t) = true /\
    fst (table_run m s [TNext; TNext; TSeek 1; TNext])
    = [TValue (DVal TyI [9] 0 0); TValue (DVal TyJ [6] 1 0); TDone; TValue (DVal TyJ [-1] 0 1)].
Proof. ex_check. Qed.
Print Assumptions C34_mid_array_refuted.

(** ** C35: the row iterator *)

(** One list of cells per row, in order, then the end.  [fuel] bounds the cells of a row in the
    model. *)
Theorem C35_rows : forall m d f h f' t,
  octets d -> rd_data (f_reader f) = d -> 0 <= rd_pos (f_reader f) -> next m f = (IOk h, f') ->
  h_xt h = XtBin t -> table_inside d t (h_offset h) ->
  forall lim, lim <= len d ->
  columns_readable d lim t (h_offset h) true (all_columns t) -> bt_tforms t <> [] ->
  exists s rows, get_table m f' t = Ok s /\
    Forall2 (fun i cells => Forall2 (slot_value d) (row_slots d t (h_offset h) true (all_columns t) i) cells)
            (rows_from t 0) rows /\
    forall fuel n, (1 <= fuel)%nat ->
      (forall i, In i (rows_from t 0) ->
         (List.length (row_slots d t (h_offset h) true (all_columns t) i) <= fuel)%nat) ->
      row_run m fuel (row_iter s) n = firstn n (map RowOf rows ++ repeat RowEnd n).
Proof. exact table_rows. Qed.
Print Assumptions C35_rows.

Example C35_ex : forall m,
  exists t o s, found m (ex_vla 1) t o s /\ table_inside (ex_vla 1) t o /\
    columns_readableb (ex_vla 1) (len (ex_vla 1)) t o true (all_columns t) = true /\
    map (row_slots (ex_vla 1) t o true (all_columns t)) (rows_from t 0)
    = [[SElem TyI 5760 0 0; SElem TyJ 5784 1 0; SElem TyJ 5788 1 1]; [SElem TyI 5770 0 0; SElem TyJ 5780 1 0]] /\
    row_run m 3 (row_iter s) 4
    = [RowOf [DVal TyI [9] 0 0; DVal TyJ [6] 1 0; DVal TyJ [-1] 1 1];
       RowOf [DVal TyI [8] 0 0; DVal TyJ [5] 1 0]; RowEnd; RowEnd].
Proof. ex_check. Qed.

(** The row iterator of a table that was moved to row 1 counts its rows from 0: it first gives an
    empty row. *)
Theorem C35_after_seek_refuted : forall m,
  exists t o s, found m (ex_vla 1) t o s /\ table_inside (ex_vla 1) t o /\
    row_run m 3 (row_iter (snd (table_run m s [TSeek 1]))) 3
    = [RowOf []; RowOf [DVal TyI [8] 0 0; DVal TyJ [5] 1 0]; RowEnd].
Proof. ex_check. Qed.
Print Assumptions C35_after_seek_refuted.

(** ** C36: variable-length arrays *)

(** The elements of each array, from the place the descriptor gives, between the cells of the
    main table. *)
Theorem C36_arrays : forall m d f h f' t,
  octets d -> rd_data (f_reader f) = d -> 0 <= rd_pos (f_reader f) -> next m f = (IOk h, f') ->
  h_xt h = XtBin t -> table_inside d t (h_offset h) ->
  forall lim, lim <= len d ->
  columns_readable d lim t (h_offset h) true (all_columns t) -> bt_tforms t <> [] ->
  exists s cells, get_table m f' t = Ok s /\
    Forall2 (slot_value d) (slots_from d t (h_offset h) true (all_columns t) 0) cells /\
    forall n, fst (table_run m s (repeat TNext n)) = firstn n (map TValue cells ++ repeat TEnd n).
Proof. exact table_cells. Qed.
Print Assumptions C36_arrays.

Example C36_ex : forall m,
  exists t o s, found m (ex_vla 3) t o s /\ table_inside (ex_vla 3) t o /\
    columns_readableb (ex_vla 3) (len (ex_vla 3)) t o true (all_columns t) = true /\
    fst (table_run m s (repeat TNext 8))
    = map TValue [DVal TyI [9] 0 0; DVal TyJ [6] 1 0; DVal TyJ [-1] 1 1;
                  DVal TyI [8] 0 0; DVal TyJ [5] 1 0; DVal TyJ [6] 1 1; DVal TyJ [-1] 1 2] ++ [TEnd].
Proof. ex_check. Qed.

(** An empty array: a value is read, and the counter of remaining bytes goes below zero. *)
Theorem C36_empty_refuted : forall m,
  exists t o s, found m (ex_vla 0) t o s /\ table_inside (ex_vla 0) t o /\
    slots_from (ex_vla 0) t o true (all_columns t) 1 = [SElem TyI 5770 0 0] /\
    fst (table_run m s [TNext; TNext; TNext; TNext; TNext])
    = [TValue (DVal TyI [9] 0 0); TValue (DVal TyJ [6] 1 0); TValue (DVal TyJ [-1] 1 1); TValue (DVal TyI [8] 0 0);
       match m with Checked => TPanic | Wrapping => TValue (DVal TyJ [5] 1 0) end].
Proof. ex_check. Qed.
Print Assumptions C36_empty_refuted.

(** An array of 3 bits, stored in one byte: three bytes are read. *)
Definition ex_bit_array : list Z :=
  ex_table_file ["NAXIS1  = 8"; "NAXIS2  = 1"; "PCOUNT  = 3"; "TFIELDS = 1"; "TFORM1  = '1PX(3)'"]
                [0; 0; 0; 3;  0; 0; 0; 0;   160; 1; 2].
Theorem C36_bits_refuted : forall m,
  exists t o s, found m ex_bit_array t o s /\ table_inside ex_bit_array t o /\
    fst (table_run m s (repeat TNext 4))
    = [TValue (DVal TyX [160] 0 0); TValue (DVal TyX [1] 0 1); TValue (DVal TyX [2] 0 2); TEnd].
Proof. ex_check. Qed.
Print Assumptions C36_bits_refuted.

(** ** C37: logical cells *)

(** What is read: true for every byte but NUL, so for T as well; ... *)
Theorem C37_logical_partial : forall m d f h f' t,
  octets d -> rd_data (f_reader f) = d -> 0 <= rd_pos (f_reader f) -> next m f = (IOk h, f') ->
  h_xt h = XtBin t -> table_inside d t (h_offset h) ->
  bt_tforms t <> [] -> Forall fixed_width (bt_tforms t) ->
  exists s cells, get_table m f' t = Ok s /\
    Forall2 (logical_read d) (slots_from d t (h_offset h) true (all_columns t) 0) cells /\
    forall n, fst (table_run m s (repeat TNext n)) = firstn n (map TValue cells ++ repeat TEnd n).
Proof. exact logical_cells. Qed.
Print Assumptions C37_logical_partial.

(** ... but F is read as true too. *)
Definition ex_logical : list Z :=
  ex_table_file ["NAXIS1  = 3"; "NAXIS2  = 1"; "PCOUNT  = 0"; "TFIELDS = 1"; "TFORM1  = '3L'"] (chars "TF" ++ [0]).
Theorem C37_false_refuted : forall m,
  exists t o s, found m ex_logical t o s /\ table_inside ex_logical t o /\ Forall fixed_width (bt_tforms t) /\
    slice ex_logical o 3 = chars "TF" ++ [0] /\
    fst (table_run m s (repeat TNext 4))
    = [TValue (DVal TyL [1] 0 0); TValue (DVal TyL [1] 0 1); TValue (DVal TyL [0] 0 2); TEnd].
Proof. ex_check. Qed.
Print Assumptions C37_false_refuted.

(** ** C28: raw bytes of a table *)

Theorem C28_table : forall m d f h f' t s,
  octets d -> len d < 2 ^ 64 -> rd_data (f_reader f) = d -> 0 <= rd_pos (f_reader f) ->
  next m f = (IOk h, f') -> h_xt h = XtBin t -> get_table m f' t = Ok s ->
  exists n, hdu_size m h = Ok n /\
    table_raw_bytes m s = if h_offset h + n <=? len d then Ok (slice d (h_offset h) n) else Panic.
Proof. exact raw_bytes_table. Qed.
Print Assumptions C28_table.

Example C28_ex_table : forall m,
  exists t o s, found m ex_bit_array t o s /\
    table_raw_bytes m s = Ok [0; 0; 0; 3;  0; 0; 0; 0;   160; 1; 2].
Proof. ex_check. Qed.

(** ** C53: the bytes of the main table *)

Theorem C53_table_bytes : forall m d f h f' t s,
  octets d -> rd_data (f_reader f) = d -> 0 <= rd_pos (f_reader f) -> next m f = (IOk h, f') ->
  h_xt h = XtBin t -> bt_naxis1 t * bt_naxis2 t < 2 ^ 64 -> get_table m f' t = Ok s ->
  forall sizes k, Forall (fun k => 0 <= k) sizes -> 0 < k ->
    let unit := slice d (h_offset h) (bt_naxis1 t * bt_naxis2 t) in
    let got := List.concat (fst (ascii_run (table_bytes s) sizes)) in
    let more := fst (buf_read (snd (ascii_run (table_bytes s) sizes)) k) in
    got ++ more = firstn (List.length (got ++ more)) unit /\ len more <= k /\ (more = [] <-> got = unit).
Proof. exact table_main_bytes. Qed.
Print Assumptions C53_table_bytes.

Example C53_ex_table : forall m,
  exists t o s, found m ex_bit_array t o s /\
    fst (ascii_run (table_bytes s) [3; 2; 9; 4]) = [[0; 0; 0]; [3; 0]; [0; 0; 0]; []].
Proof. ex_check. Qed.

(** ** C29: reading a table does not disturb HDU iteration *)

Theorem C29_tables : forall m d f h f' t,
  octets d -> rd_data (f_reader f) = d -> 0 <= rd_pos (f_reader f) -> next m f = (IOk h, f') ->
  h_xt h = XtBin t -> table_inside d t (h_offset h) ->
  forall n s ops,
  hdu_size m h = Ok n -> h_offset h + in_blocks n < 2 ^ 63 -> h_offset h + n <= len d ->
  columns_readable d (h_offset h + n) t (h_offset h) true (all_columns t) -> bt_tforms t <> [] ->
  get_table m f' t = Ok s ->
  (let from := slots_from d t (h_offset h) true (all_columns t) in proper t from (from 0) ops) ->
  next m (give_back f' (tb_reader (snd (table_run m s ops)))) = next m f'.
Proof. exact table_undisturbed. Qed.
Print Assumptions C29_tables.

Example C29_ex_table : forall m,
  exists t o s, found m (ex_vla 3) t o s /\
    columns_readableb (ex_vla 3) (o + 32) t o true (all_columns t) = true /\
    rd_pos (tb_reader (snd (table_run m s (repeat TNext 6)))) = o + 28 /\
    bintable_num_bytes m t = Ok 32.
Proof. ex_check. Qed.
