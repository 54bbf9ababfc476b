(** Model of reads through the [Fits] value itself, and of the getters beside them. *)

From Verif Require Import Base Text Card Reader Header Xtension Bytes Fits ImageIt.

(** [src/fits.rs] lines 26-33: [Read for Fits], one call with a buffer of [n] bytes on a source that gives at most
    [k] of them (sources may give fewer bytes than asked for; a [Cursor] never does). *)
Definition fits_read (f : fits) (n k : Z) : list Z * fits :=
  let (bs, r) := read_some (f_reader f) (Z.min n k) in (bs, give_back f r).

(** Lines 81-88: [get_position_data_unit]. *)
Definition position_data_unit (f : fits) : Z := f_pos_du f.
