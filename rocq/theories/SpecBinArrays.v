(** Tables with arrays that are empty or run over the end of the file. *)

From Coq Require Import String.
From Verif Require Import Base Text Card Reader Header Xtension Bytes BinTable SpecCard SpecXt SpecBin SpecTileSafe.

(** The cells before column [c] of row [r], in the order of the file, and their values. *)
Definition slots_before (d : list Z) (t : bintable) (o r c : Z) : list slot :=
  flat_map (row_slots d t o true (all_columns t)) (upto r) ++ flat_map (cell d t o true r) (upto c).
(** They can all be read. *)
Definition readable_cell (d : list Z) (t : bintable) (o r c : Z) : Prop :=
  exists f, format t c = Some f /\
    cell_readable d (len d) true (o + bt_theap t) f (o + r * bt_naxis1 t + column_start (bt_tforms t) c).
Definition readable_before (d : list Z) (t : bintable) (o r c : Z) : Prop :=
  forall i j, 0 <= i -> 0 <= j < len (bt_tforms t) -> i < r \/ i = r /\ j < c -> readable_cell d t o i j.

(** The cell of row [r] and column [c] is an array of [n] elements of type [e], the first of them at byte [p] of the file. *)
Definition array_cell (d : list Z) (t : bintable) (o r c : Z) (e : ety) (n p : Z) : Prop :=
  let b := o + r * bt_naxis1 t + column_start (bt_tforms t) c in
  e <> TyX /\
  (format t c = Some (TDesc32 e) /\ n = be_value (slice d b 4) /\ p = o + bt_theap t + be_value (slice d (b + 4) 4) \/
   format t c = Some (TDesc64 e) /\ n = be_value (slice d b 8) /\ p = o + bt_theap t + be_value (slice d (b + 8) 8)).

(** The elements of type [e] that lie one after the other from byte [p] to the end of the file, with these index numbers. *)
Definition to_the_end (d : list Z) (e : ety) (p c : Z) (number : Z -> Z) : list slot :=
  map (fun k => SElem e (p + k * elem_bytes e) c (number k)) (upto ((len d - p) / elem_bytes e)).

(** The index numbers in an empty array: 0, and then what is left of 2^64 bytes. *)
Definition empty_number (e : ety) (k : Z) : Z := if k =? 0 then 0 else 2 ^ 64 - 2 ^ 64 / elem_bytes e + k.
