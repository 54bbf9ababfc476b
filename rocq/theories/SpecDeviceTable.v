(** Specification side for tables on a device that fails. *)

From Verif Require Import Base Text Card Reader Header Xtension Bytes Fits ImageIt BinTable SpecBin Device DeviceTable.

(** The values a loop over a table is given, in at most [n] turns: it ends at the first [None] (or panic). *)
Fixpoint dev_cells (m : mode) (n : nat) (s : table) (fs : faults) : list dvalue :=
  match n with
  | O => []
  | S n' => match dev_table_next m s fs with
            | (Ok (Some v), s', fs') => v :: dev_cells m n' s' fs'
            | _ => []
            end
  end.

(** The rows a loop over the rows is given. *)
Fixpoint dev_rows (m : mode) (fuel : nat) (n : nat) (x : row_it) (fs : faults) : list (list dvalue) :=
  match n with
  | O => []
  | S n' => match dev_row_next m fuel x fs with
            | (Some (Ok (Some l)), x', fs') => l :: dev_rows m fuel n' x' fs'
            | _ => []
            end
  end.

(** What the same loops are given on a device that works: what comes before the first result that is not
    a value. *)
Fixpoint cells_of (l : list table_result) : list dvalue :=
  match l with TValue v :: r => v :: cells_of r | _ => [] end.
Fixpoint rows_of (l : list row_result) : list (list dvalue) :=
  match l with RowOf v :: r => v :: rows_of r | _ => [] end.

(** [calls] says how many calls on the device each turn of a loop takes: call number [j] is made in
    turn [k]. *)
Definition calls_before (calls : list nat) (k : nat) : nat := list_sum (firstn k calls).
Definition in_turn (calls : list nat) (k j : nat) : Prop :=
  (calls_before calls k <= j < calls_before calls (S k))%nat.
