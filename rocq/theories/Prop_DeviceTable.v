(** Binary tables on devices that fail (C79).  [DeviceTable] holds the models, [SpecDeviceTable] the
    specification side. *)

From Coq Require Import String List Lia ZifyBool.
From Verif Require Import Base Utf8 Text Card Reader Header Xtension Bytes Fits ImageIt BinTable Device DeviceTable.
From Verif Require Import SpecUtf8 SpecCard SpecHeader SpecXt SpecFits SpecImage SpecBin SpecDevice SpecDeviceTable.
From Verif Require Import HeaderProofs FitsProofs4 BinProofs3 DeviceProofs DeviceProofs2 DeviceTableProofs.
From Verif Require Import Prop_Fits Prop_Bin Prop_Device.
Local Open Scope string_scope.
Local Open Scope list_scope.
Local Open Scope Z_scope.

(** One call of [next], in any state: when the device works, what it gives on a device that always works;
    when one of the calls it makes fails, [None], which is also what the end of the table gives. *)
Theorem C79_next : forall m s, exists N,
  (forall v s', table_next m s = (Ok (Some v), s') -> (1 <= N)%nat) /\
  forall fs,
    (working N fs -> dev_table_next m s fs = (table_next m s, skipn N fs)) /\
    (forall j, (j < N)%nat -> first_fault fs j -> exists s', dev_table_next m s fs = (Ok None, s', skipn (S j) fs)).
Proof. exact table_next_device. Qed.
Print Assumptions C79_next.

(** A loop over the values of a table of a file, arrays of the heap included.  [calls] are the numbers of
    calls on the device that its turns take, whatever the device does ([fs2]); when the first failure falls into turn [k], the loop is given
    the [k] values before, and no other. *)
Theorem C79_cells : forall m d f fs h f' fs' t,
  octets d -> rd_data (f_reader f) = d -> 0 <= rd_pos (f_reader f) -> dev_next m f fs = (IOk h, f', fs') ->
  h_xt h = XtBin t -> table_inside d t (h_offset h) ->
  forall lim, lim <= len d ->
  columns_readable d lim t (h_offset h) true (all_columns t) -> bt_tforms t <> [] ->
  exists s cells, get_table m f' t = Ok s /\
    Forall2 (slot_value d) (slots_from d t (h_offset h) true (all_columns t) 0) cells /\
    forall n, (List.length cells <= n)%nat -> exists calls,
      (forall k, (k < List.length cells)%nat -> (1 <= nth k calls 0)%nat) /\
      forall fs2,
      (working (list_sum calls) fs2 -> dev_cells m n s fs2 = cells) /\
      (forall j k, first_fault fs2 j -> in_turn calls k j -> dev_cells m n s fs2 = firstn k cells).
Proof. exact file_cells_device. Qed.
Print Assumptions C79_cells.

(** The same for the rows: a row that the device fails in is not given, the rows before it are whole. *)
Theorem C79_rows : forall m d f fs h f' fs' t,
  octets d -> rd_data (f_reader f) = d -> 0 <= rd_pos (f_reader f) -> dev_next m f fs = (IOk h, f', fs') ->
  h_xt h = XtBin t -> table_inside d t (h_offset h) ->
  forall lim, lim <= len d ->
  columns_readable d lim t (h_offset h) true (all_columns t) -> bt_tforms t <> [] ->
  exists s rows, get_table m f' t = Ok s /\
    Forall2 (fun i cells => Forall2 (slot_value d) (row_slots d t (h_offset h) true (all_columns t) i) cells)
            (rows_from t 0) rows /\
    forall fuel n, (1 <= fuel)%nat ->
      (forall i, In i (rows_from t 0) ->
         (List.length (row_slots d t (h_offset h) true (all_columns t) i) <= fuel)%nat) ->
      (List.length rows <= n)%nat -> exists calls,
      forall fs2,
      (working (list_sum calls) fs2 -> dev_rows m fuel n (row_iter s) fs2 = rows) /\
      (forall j k, first_fault fs2 j -> in_turn calls k j -> dev_rows m fuel n (row_iter s) fs2 = firstn k rows).
Proof. exact file_rows_device. Qed.
Print Assumptions C79_rows.

(** Loops that begin anywhere, over any table: selected columns, damaged tables, the middle of a row. *)
Theorem C79_anywhere : forall m n s, exists calls,
  let cells := cells_of (fst (table_run m s (repeat TNext n))) in
  (forall k, (k < List.length cells)%nat -> (1 <= nth k calls 0)%nat) /\
  forall fs,
    (working (list_sum calls) fs -> dev_cells m n s fs = cells) /\
    (forall j k, first_fault fs j -> in_turn calls k j -> dev_cells m n s fs = firstn k cells).
Proof. exact cells_device. Qed.
Print Assumptions C79_anywhere.

(** [seek_to_row] makes one call, and returns an error when it fails. *)
Theorem C79_seek : forall m s i, exists N,
  (forall s', seek_to_row m s i = (Ok tt, s') -> N = 1%nat) /\
  forall fs,
    (working N fs -> dev_seek_to_row m s fs i = (seek_to_row m s i, skipn N fs)) /\
    (forall j, (j < N)%nat -> first_fault fs j -> exists e s', dev_seek_to_row m s fs i = (Err e, s', skipn (S j) fs)).
Proof. exact seek_row_device. Qed.
Print Assumptions C79_seek.

(** The table of fixed width, whose eight values take 14 calls: six of them end a column, and take a seek
    besides the read.  The calls of the values are, in order, 2, 1, 2, 2, 2, 1, 2, 2. *)
Example C79_ex : forall m,
  exists t o s, found m ex_fixed t o s /\ table_inside ex_fixed t o /\
    columns_readableb ex_fixed (len ex_fixed) t o true (all_columns t) = true /\
    map (fun n => List.length (dev_cells m 9 s (failing_at n))) (seq 0 15)
    = [0; 0; 1; 2; 2; 3; 3; 4; 4; 5; 6; 6; 7; 7; 8]%nat /\
    dev_cells m 9 s (failing_at 4) = [DVal TyL [1] 0 0; DVal TyI [1] 1 0] /\
    fst (fst (dev_seek_to_row m s (failing_at 0) 1)) = Err EIoOther /\
    fst (fst (dev_seek_to_row m s (failing_at 1) 1)) = Ok tt.
Proof. ex_check. Qed.

(** The table with arrays, by rows: 10 calls for the first row. *)
Example C79_ex_rows : forall m,
  exists t o s, found m (ex_vla 1) t o s /\ table_inside (ex_vla 1) t o /\
    columns_readableb (ex_vla 1) (len (ex_vla 1)) t o true (all_columns t) = true /\
    map (fun n => List.length (dev_rows m 3 9 (row_iter s) (failing_at n))) [0; 9; 10; 18; 19]%nat = [0; 0; 1; 1; 2]%nat /\
    dev_rows m 3 9 (row_iter s) (failing_at 10) = [[DVal TyI [9] 0 0; DVal TyJ [6] 1 0; DVal TyJ [-1] 1 1]].
Proof. ex_check. Qed.

(** Going on after the [None] of a failure: the iterator reads on from where the device is, and what it
    gives is not in the table. *)
Fixpoint dev_calls (m : mode) (n : nat) (s : table) (fs : faults) : list (res (option dvalue)) :=
  match n with
  | O => []
  | S n' => let '(x, s', fs') := dev_table_next m s fs in x :: dev_calls m n' s' fs'
  end.
Theorem C79_afterwards_refuted : forall m,
  exists t o s, found m ex_fixed t o s /\ table_inside ex_fixed t o /\
    firstn 4 (fst (table_run m s (repeat TNext 9)))
    = map TValue [DVal TyL [1] 0 0; DVal TyI [1] 1 0; DVal TyI [-2] 1 1; DVal TyA [65] 2 0] /\
    dev_calls m 4 s (failing_at 2)
    = [Ok (Some (DVal TyL [1] 0 0)); Ok None; Ok (Some (DVal TyI [511] 1 0)); Ok (Some (DVal TyI [-447] 1 1))].
Proof. ex_check. Qed.
Print Assumptions C79_afterwards_refuted.

(** The seek to the next column comes after the value is read, and before it is given: when it fails, the
    value is lost, even though the device read it (here the position has not moved). *)
Theorem C79_lost_refuted : forall m,
  exists t o s, found m ex_fixed t o s /\ table_inside ex_fixed t o /\
    dev_calls m 3 s [None; Some 0]
    = [Ok None; Ok (Some (DVal TyI [1] 1 0)); Ok (Some (DVal TyI [-2] 1 1))].
Proof. ex_check. Qed.
Print Assumptions C79_lost_refuted.
