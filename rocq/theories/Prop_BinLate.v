(** Selections made on a table in use, and seeks before the first value of a selection (C86).
    [SpecBinLate] holds the specification side: [places] are the cells met by reading columns
    forwards only from some byte on, [reads] what calls of [next] give. *)

From Coq Require Import String List Lia ZifyBool Permutation Sorted.
From Verif Require Import Base Utf8 Text Card Reader Header Xtension Bytes Fits ImageIt BinTable.
From Verif Require Import SpecUtf8 SpecCard SpecHeader SpecXt SpecFits SpecImage SpecBin SpecBinSeek SpecBinTwice SpecBinLate.
From Verif Require Import HeaderProofs FitsProofs4 BinProofs BinProofs3 BinProofs8 BinProofs9 Prop_Fits Prop_Bin.
Local Open Scope string_scope.
Local Open Scope list_scope.
Local Open Scope Z_scope.

(** The history [before] stops before element [k] of column [c] in row [r].  A selection made there
    of [c] columns or fewer panics.  Otherwise the column number [c] of the selection is read first,
    from its element [k] on, and not from its place: the offset of the column is counted from where
    the table stands instead of from the start of the row.  The columns after it are read at the
    next place that is one of theirs, as many as [r] rows of the table have left. *)
Theorem C86_late : forall m d f h f' t,
  octets d -> rd_data (f_reader f) = d -> 0 <= rd_pos (f_reader f) -> next m f = (IOk h, f') ->
  h_xt h = XtBin t -> table_inside d t (h_offset h) -> len d < 2 ^ 62 ->
  bt_tforms t <> [] -> Forall fixed_width (bt_tforms t) ->
  let o := h_offset h in
  exists s, get_table m f' t = Ok s /\ forall before r e p c k left ids sel,
    let from := slots_from d t o true (all_columns t) in
    proper t from (from 0) before ->
    standing t (table_row d t o) 0 (table_row d t o 0) before = (r, SElem e p c k :: left) ->
    Forall id_ok ids -> requested t ids sel -> len sel < 2 ^ 64 ->
    let s' := select_fields (snd (table_run m s before)) ids in
    (len sel <= c -> fst (table_run m s' [TNext]) = [TPanic]) /\
    (forall c' e' n, nth_error sel (Z.to_nat c) = Some c' -> format t c' = Some (TElem e' n) -> k < n ->
       let x := p - o + column_start (bt_tforms t) c' in
       let after := skipn (Z.to_nat (c + 1)) sel ++ concat (repeat sel (Z.to_nat (bt_naxis2 t - 1 - r))) in
       let slots := rest_slots e' n (o + x) k c' ++ place_slots d t o (places t (x + (n - k) * elem_bytes e') after) in
       let rows_end := o + bt_naxis1 t * bt_naxis2 t in
       in_file d rows_end slots -> reads m d rows_end s' slots).
Proof. exact table_late. Qed.
Print Assumptions C86_late.

(** [seek_to_row] between the selection and the first value, whatever was read before: the offset
    of the first column selected is counted twice. *)
Theorem C86_seek_first : forall m d f h f' t,
  octets d -> rd_data (f_reader f) = d -> 0 <= rd_pos (f_reader f) -> next m f = (IOk h, f') ->
  h_xt h = XtBin t -> table_inside d t (h_offset h) -> len d < 2 ^ 62 ->
  bt_tforms t <> [] -> Forall fixed_width (bt_tforms t) ->
  let o := h_offset h in
  exists s, get_table m f' t = Ok s /\ forall before ids sel c l e n i,
    let from := slots_from d t o true (all_columns t) in
    proper t from (from 0) before -> Forall id_ok ids -> requested t ids sel -> len sel < 2 ^ 64 ->
    sel = c :: l -> format t c = Some (TElem e n) -> 0 <= i < bt_naxis2 t ->
    let x := i * bt_naxis1 t + 2 * column_start (bt_tforms t) c in
    let slots := elems e n (o + x) c ++
                 place_slots d t o (places t (x + n * elem_bytes e) (l ++ concat (repeat sel (Z.to_nat (bt_naxis2 t - 1 - i))))) in
    let rows_end := o + bt_naxis1 t * bt_naxis2 t in
    in_file d rows_end slots ->
    exists s', seek_to_row m (select_fields (snd (table_run m s before)) ids) i = (Ok tt, s') /\ reads m d rows_end s' slots.
Proof. exact table_seek_first. Qed.
Print Assumptions C86_seek_first.

(** Two rows of a flag, two integers and a letter.  After the flag, the columns 1 and 2 are asked
    for: the flag of the second row is given as a letter, then comes the second row. *)
Example C86_late_ex : forall m,
  exists t o s, found m ex_fixed t o s /\ table_inside ex_fixed t o /\
    (let d := ex_fixed in
     let from := slots_from d t o true (all_columns t) in
     let ids := [CIndex 2; CName (chars "XY")] in
     proper t from (from 0) [TNext] /\
     standing t (table_row d t o) 0 (table_row d t o 0) [TNext]
     = (0, [SElem TyI (o + 1) 1 0; SElem TyI (o + 3) 1 1; SElem TyA (o + 5) 2 0]) /\
     requestedb t ids [1; 2] = true /\ format t 2 = Some (TElem TyA 1) /\
     places t 7 [1; 2] = [(7, 1); (11, 2)] /\
     fst (table_run m (select_fields (snd (table_run m s [TNext])) ids) (repeat TNext 6))
     = map TValue [DVal TyA [0] 2 0; DVal TyI [256] 1 0; DVal TyI [7] 1 1; DVal TyA [66] 2 0] ++ [TEnd; TEnd] /\
     (* the flag and the letter: the second row is taken for the end of the table *)
     requestedb t [CIndex 0; CIndex 2] [0; 2] = true /\ places t 7 [0; 2] = [(12, 0); (17, 2)] /\
     fst (table_run m (select_fields (snd (table_run m s [TNext])) [CIndex 0; CIndex 2]) (repeat TNext 3))
     = [TValue (DVal TyA [0] 2 0); TEnd; TEnd] /\
     (* one column only *)
     fst (table_run m (select_fields (snd (table_run m s [TNext])) [CIndex 2]) [TNext]) = [TPanic]).
Proof. ex_check. Qed.

(** The letter alone, sought in the rows 0 and 1. *)
Example C86_seek_first_ex : forall m,
  exists t o s, found m ex_fixed t o s /\ table_inside ex_fixed t o /\
    requestedb t [CIndex 2] [2] = true /\ format t 2 = Some (TElem TyA 1) /\ column_start (bt_tforms t) 2 = 5 /\
    places t 11 [2] = [(11, 2)] /\
    fst (table_run m (select_fields s [CIndex 2]) [TSeek 0; TNext; TNext; TNext])
    = [TDone; TValue (DVal TyA [7] 2 0); TValue (DVal TyA [66] 2 0); TEnd] /\
    fst (table_run m (select_fields (snd (table_run m s [TNext; TSeek 0; TNext])) [CIndex 2]) [TSeek 1; TNext])
    = [TDone; match m with Checked => TPanic | Wrapping => TValue (DVal TyA [0] 2 0) end].
Proof. ex_check. Qed.
