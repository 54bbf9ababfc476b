(** Specification side for loops over binary tables of damaged files. *)

From Verif Require Import Base Text Card Reader Header Xtension Bytes Fits ImageIt BinTable
  SpecCard SpecXt SpecFits SpecBin.

(** [s'] is the table [s] as a caller may set it up before reading: all its columns, or a
    selection that names at least one of them, with or without the arrays of the heap. *)
Inductive prepared (t : bintable) (s : table) : table -> Prop :=
| prepared_all : bt_tforms t <> [] -> prepared t s s
| prepared_some ids i c : Forall id_ok ids -> In i ids -> names t i c -> 0 <= c < len (bt_tforms t) ->
    prepared t s (select_fields s ids)
| prepared_heap s' b : prepared t s s' -> prepared t s (read_the_heap s' b).

(** How many calls of [next] are enough to see the end of a table in a file of [n] bytes. *)
Definition enough_calls (n : Z) : Z := (n + 1) * (n + 2) + 1.
