(** Seeks to a row made in the middle of an array of the heap (C83).  [SpecBinSeek] holds the
    specification side: [standing] is the place a history has come to, [drift] how far the table
    moves. *)

From Coq Require Import String List Lia ZifyBool.
From Verif Require Import Base Utf8 Text Card Reader Header Xtension Bytes Fits ImageIt BinTable.
From Verif Require Import SpecUtf8 SpecCard SpecHeader SpecXt SpecFits SpecImage SpecBin SpecBinSeek.
From Verif Require Import HeaderProofs FitsProofs4 BinProofs BinProofs3 BinProofs7 Prop_Fits Prop_Bin.
Local Open Scope string_scope.
Local Open Scope list_scope.
Local Open Scope Z_scope.

(** The history [before] stops at element [k] of the array whose descriptor is in row [row] and
    column [c], and [n] elements of it are left.  The seek to row [i] succeeds, but the next [n]
    values are those [x] bytes before the elements left, given as elements of column 0.  Then come
    the columns of row [i] but the first, and from there on, whatever is done, the iterator is one
    over the table [x] bytes further on in the file. *)
Theorem C83_seek_in_array : forall m d f h f' t,
  octets d -> rd_data (f_reader f) = d -> 0 <= rd_pos (f_reader f) -> next m f = (IOk h, f') ->
  h_xt h = XtBin t -> table_inside d t (h_offset h) -> forall lim,
  lim <= len d -> columns_readable d lim t (h_offset h) true (all_columns t) -> 2 <= len (bt_tforms t) ->
  exists s, get_table m f' t = Ok s /\ forall before row e p c k left w i,
    let o := h_offset h in
    let from := slots_from d t o true (all_columns t) in
    proper t from (from 0) before ->
    standing t (table_row d t o) 0 (table_row d t o 0) before = (row, SElem e p c k :: left) ->
    format t c = Some w -> (match w with TElem _ _ => False | _ => True end) -> 1 <= k -> 0 <= i < bt_naxis2 t ->
    let n := len (skipn (Z.to_nat k) (cell d t o true row c)) in
    let x := drift t row c w i in
    0 <= p - x -> p - x + n * elem_bytes e <= len d ->
    0 <= o + x -> o + x + bt_naxis1 t * bt_naxis2 t <= len d ->
    columns_readable d lim t (o + x) true (all_columns t) ->
    exists values, Forall2 (slot_value d) (astray e (p - x) k n) values /\
      forall ops,
        let from' := slots_from d t (o + x) true (all_columns t) in
        let cur' := flat_map (cell d t (o + x) true i) (tl (all_columns t)) ++ from' (i + 1) in
        proper t from' cur' ops ->
        exists results, history d t from' cur' ops results /\
          fst (table_run m s (before ++ TSeek i :: repeat TNext (Z.to_nat n) ++ ops))
          = fst (table_run m s before) ++ TDone :: map TValue values ++ results.
Proof. exact table_seek_in_array. Qed.
Print Assumptions C83_seek_in_array.

(** Two rows of a 16-bit integer and an array; the heap begins with ten bytes that look like a row. *)
Definition ex_drift : list Z :=
  ex_table_file ["NAXIS1  = 10"; "NAXIS2  = 2"; "PCOUNT  = 22"; "TFIELDS = 2"; "TFORM1  = 'I'"; "TFORM2  = '1PJ(2)'"]
                ([0; 9;   0; 0; 0; 2;  0; 0; 0; 10;     0; 8;   0; 0; 0; 1;  0; 0; 0; 14] ++
                 [0; 7;   0; 0; 0; 1;  0; 0; 0; 0] ++ [0; 0; 0; 5;   0; 0; 0; 6;   0; 0; 0; 4]).

(** After the first element of the first array, back to row 0: bytes 4 to 7 of the heap as the
    second element of column 0, then the array of row 1 in place of that of row 0, then the row
    that is none, then the end.  A later seek to row 0 stays ten bytes off. *)
Example C83_ex : forall m,
  exists t o s, found m ex_drift t o s /\ table_inside ex_drift t o /\
    (let d := ex_drift in
     let from := slots_from d t o true (all_columns t) in
     let before := [TNext; TNext] in
     columns_readableb d (len d) t o true (all_columns t) = true /\
     proper t from (from 0) before /\
     standing t (table_row d t o) 0 (table_row d t o 0) before = (0, [SElem TyJ (o + 34) 1 1]) /\
     format t 1 = Some (TDesc32 TyJ) /\ drift t 0 1 (TDesc32 TyJ) 0 = 10 /\
     len (skipn 1 (cell d t o true 0 1)) = 1 /\ bt_naxis1 t = 10 /\ bt_naxis2 t = 2 /\
     columns_readableb d (len d) t (o + 10) true (all_columns t) = true /\
     (let from' := slots_from d t (o + 10) true (all_columns t) in
      let cur' := flat_map (cell d t (o + 10) true 0) (tl (all_columns t)) ++ from' 1 in
      proper t from' cur' [TNext; TNext; TNext; TNext; TSeek 0; TNext] /\
      fst (table_run m s (before ++ TSeek 0 :: TNext :: [TNext; TNext; TNext; TNext; TSeek 0; TNext]))
      = [TValue (DVal TyI [9] 0 0); TValue (DVal TyJ [5] 1 0); TDone; TValue (DVal TyJ [65536] 0 1);
         TValue (DVal TyJ [0] 1 0); TValue (DVal TyI [7] 0 0); TValue (DVal TyJ [5] 1 0); TEnd; TDone;
         TValue (DVal TyI [8] 0 0)])).
Proof. ex_check. Qed.

(** No drift: to the row that follows the array.  Every value is read from its place, but the rest
    of the array is given as elements of column 0, and column 0 of the row is not read. *)
Example C83_next_row_ex : forall m,
  exists t o s, found m (ex_vla 1) t o s /\ table_inside (ex_vla 1) t o /\
    drift t 0 1 (TDesc32 TyJ) 1 = 0 /\
    fst (table_run m s [TNext; TNext; TSeek 1; TNext; TNext; TNext])
    = [TValue (DVal TyI [9] 0 0); TValue (DVal TyJ [6] 1 0); TDone; TValue (DVal TyJ [-1] 0 1);
       TValue (DVal TyJ [5] 1 0); TEnd].
Proof. ex_check. Qed.

(** With a single column there is no second one to go on with: the row is counted as read, and the
    last row of the table is never given. *)
Definition ex_single : list Z :=
  ex_table_file ["NAXIS1  = 8"; "NAXIS2  = 3"; "PCOUNT  = 16"; "TFIELDS = 1"; "TFORM1  = '1PJ(2)'"]
                ([0; 0; 0; 2;  0; 0; 0; 0;    0; 0; 0; 1;  0; 0; 0; 8;    0; 0; 0; 1;  0; 0; 0; 12] ++
                 [0; 0; 0; 1;   0; 0; 0; 2;   0; 0; 0; 3;   0; 0; 0; 4]).
Theorem C83_one_column_refuted : forall m,
  exists t o s, found m ex_single t o s /\ table_inside ex_single t o /\
    columns_readableb ex_single (len ex_single) t o true (all_columns t) = true /\
    drift t 0 0 (TDesc32 TyJ) 1 = 0 /\
    fst (table_run m s (repeat TNext 5))
    = [TValue (DVal TyJ [1] 0 0); TValue (DVal TyJ [2] 0 1); TValue (DVal TyJ [3] 0 0); TValue (DVal TyJ [4] 0 0); TEnd] /\
    fst (table_run m s [TNext; TSeek 1; TNext; TNext; TNext])
    = [TValue (DVal TyJ [1] 0 0); TDone; TValue (DVal TyJ [2] 0 1); TValue (DVal TyJ [3] 0 0); TEnd].
Proof. ex_check. Qed.
Print Assumptions C83_one_column_refuted.

(** ** C84: the rows of a table in use *)

(** A table that stands in row [r], with the slots [l] of that row still to come, is turned into a
    row iterator: it gives an empty row for each row before [r], then what is left of row [r], then
    the rows after it, then the end. *)
Theorem C84_rows : forall m d f h f' t,
  octets d -> rd_data (f_reader f) = d -> 0 <= rd_pos (f_reader f) -> next m f = (IOk h, f') ->
  h_xt h = XtBin t -> table_inside d t (h_offset h) -> forall lim,
  lim <= len d -> columns_readable d lim t (h_offset h) true (all_columns t) -> bt_tforms t <> [] ->
  exists s, get_table m f' t = Ok s /\ forall before r l,
    let o := h_offset h in
    let from := slots_from d t o true (all_columns t) in
    proper t from (from 0) before ->
    standing t (table_row d t o) 0 (table_row d t o 0) before = (r, l) ->
    exists first rows, Forall2 (slot_value d) l first /\
      Forall2 (fun i cells => Forall2 (slot_value d) (row_slots d t o true (all_columns t) i) cells) (rows_from t (r + 1)) rows /\
      forall fuel n, (1 <= fuel)%nat -> (List.length l <= fuel)%nat ->
        (forall i, In i (rows_from t (r + 1)) -> (List.length (row_slots d t o true (all_columns t) i) <= fuel)%nat) ->
        row_run m fuel (row_iter (snd (table_run m s before))) n
        = firstn n (repeat (RowOf []) (Z.to_nat r) ++ (if r <? bt_naxis2 t then RowOf first :: map RowOf rows else []) ++ repeat RowEnd n).
Proof. exact table_rows_in_use. Qed.
Print Assumptions C84_rows.

(** After a seek to row 1 and its first value; after the whole table. *)
Example C84_ex : forall m,
  exists t o s, found m ex_fixed t o s /\ table_inside ex_fixed t o /\
    (let d := ex_fixed in
     let from := slots_from d t o true (all_columns t) in
     columns_readableb d (len d) t o true (all_columns t) = true /\
     proper t from (from 0) [TNext; TSeek 1; TNext] /\
     standing t (table_row d t o) 0 (table_row d t o 0) [TNext; TSeek 1; TNext]
     = (1, [SElem TyI (o + 7) 1 0; SElem TyI (o + 9) 1 1; SElem TyA (o + 11) 2 0]) /\
     row_run m 4 (row_iter (snd (table_run m s [TNext; TSeek 1; TNext]))) 4
     = [RowOf []; RowOf [DVal TyI [256] 1 0; DVal TyI [7] 1 1; DVal TyA [66] 2 0]; RowEnd; RowEnd] /\
     standing t (table_row d t o) 0 (table_row d t o 0) (repeat TNext 8) = (2, []) /\
     row_run m 4 (row_iter (snd (table_run m s (repeat TNext 8)))) 4 = [RowOf []; RowOf []; RowEnd; RowEnd]).
Proof. ex_check. Qed.
