(** Specification side for seeks in the middle of an array (C83). *)

From Verif Require Import Base Text Card Reader Header Xtension Bytes Fits ImageIt BinTable
  SpecCard SpecXt SpecFits SpecImage SpecBin.

(** The row a history has come to and the slots of that row that are still to come: [row i] are all
    the slots of row [i].  A row that is read to its end is left for the next one. *)
Fixpoint standing (t : bintable) (row : Z -> list slot) (i : Z) (l : list slot) (ops : list table_op)
  : Z * list slot :=
  match ops with
  | [] => (i, l)
  | TNext :: ops' =>
    match l with
    | [] => standing t row i l ops'
    | [_] => standing t row (i + 1) (row (i + 1)) ops'
    | _ :: l' => standing t row i l' ops'
    end
  | TSeek j :: ops' => if j <? bt_naxis2 t then standing t row j (row j) ops' else standing t row i l ops'
  end.
(** The rows of the table, none after the last. *)
Definition table_row (d : list Z) (t : bintable) (o : Z) (j : Z) : list slot :=
  if j <? bt_naxis2 t then row_slots d t o true (all_columns t) j else [].

(** How far the table moves when row [i] is sought in the middle of an array whose descriptor is in
    row [row] and column [c] of format [f]: from the start of row [i] to the end of the descriptor. *)
Definition drift (t : bintable) (row c : Z) (f : tform) (i : Z) : Z :=
  (row * bt_naxis1 t + column_start (bt_tforms t) c + field_bytes f) - i * bt_naxis1 t.

(** What is left of the array, [n] elements from number [k] on: they are looked for at byte [p] and
    given as elements of column 0. *)
Definition astray (e : ety) (p k n : Z) : list slot :=
  map (fun j => SElem e (p + j * elem_bytes e) 0 (k + j)) (upto n).
