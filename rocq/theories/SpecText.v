(** Specification side for text outside of the character set of the FITS standard. *)

From Verif Require Import Base.

(** What is kept of a character: U+FFFD stands for those outside of the set. *)
Definition kept_char (c : Z) : Z := if (32 <=? c) && (c <=? 126) then c else 65533.
