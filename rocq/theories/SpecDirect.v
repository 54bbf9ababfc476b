(** Specification side for reads through the [Fits] value itself (C95). *)

From Verif Require Import Base Text Card Reader Header Xtension Bytes Fits ImageIt Direct.

(** A series of reads: the sizes of the buffers, and at most how many bytes the source gives each time. *)
Fixpoint fits_reads (f : fits) (asks : list (Z * Z)) : list (list Z) * fits :=
  match asks with
  | [] => ([], f)
  | (n, k) :: r =>
    let (bs, f1) := fits_read f n k in let (l, f2) := fits_reads f1 r in (bs :: l, f2)
  end.
Definition ask_ok (a : Z * Z) : Prop := 0 <= fst a /\ 1 <= snd a.
