(** Specification side for binary tables that the end of the file cuts off. *)

From Verif Require Import Base Text Card Reader Header Xtension Bytes Fits ImageIt BinTable
  SpecCard SpecXt SpecFits SpecBin.

(** The byte after a slot. *)
Definition slot_end (x : slot) : Z :=
  match x with
  | SElem t p _ _ => p + elem_bytes t
  | SDesc wide p => p + if wide then 16 else 8
  end.

(** The elements of a list before the first that fails the test. *)
Fixpoint leading {A} (test : A -> bool) (l : list A) : list A :=
  match l with [] => [] | x :: r => if test x then x :: leading test r else [] end.

(** The slot is in the first [n] bytes of the file. *)
Definition within (n : Z) (x : slot) : bool := slot_end x <=? n.

(** A table of which the rows may be missing, laid out as [SpecBin.table_inside] says. *)
Definition table_laid_out (d : list Z) (t : bintable) (o : Z) : Prop :=
  len d < 2 ^ 63 /\ total (map field_bits (bt_tforms t)) < 2 ^ 63 /\
  Forall (fun f => field_bits f mod 8 = 0) (bt_tforms t) /\
  o + bt_naxis1 t * bt_naxis2 t < 2 ^ 63.
