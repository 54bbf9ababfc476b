(** Random access to images of which the end is missing. *)

From Verif Require Import Base Text Card Reader Header Xtension Bytes Fits ImageIt SpecCard SpecXt SpecImage.

(** What the calls give.  [num] is the number of pixels, [c] the number of the next one, and [x]
    the byte from which the pixels are counted: the start of the data unit, until a call does not
    find its pixel [i] in the file; from then on the end of the file counts as the end of pixel [i]. *)
Fixpoint cut_history (d : list Z) (b : bitpix) (num c x : Z) (ops : list pixel_op) (rs : list pixel_result) : Prop :=
  match ops, rs with
  | [], [] => True
  | PNext :: ops, r :: rs =>
      if c =? num then r = REnd /\ cut_history d b num c x ops rs
      else if x + width b * c + width b <=? len d then
        exists v, stored d (x + width b * c) b [v] /\ r = RValue v /\ cut_history d b num (c + 1) x ops rs
      else r = REnd /\ cut_history d b num (c + 1) (len d - width b * (c + 1)) ops rs
  | PRead i :: ops, r :: rs =>
      if num <=? i then r = RError /\ cut_history d b num c x ops rs
      else if x + width b * i <? 0 then r = RError /\ cut_history d b num c x ops rs
      else if x + width b * i + width b <=? len d then
        exists v, stored d (x + width b * i) b [v] /\ r = RValue v /\ cut_history d b num (i + 1) x ops rs
      else r = RError /\ cut_history d b num (i + 1) (len d - width b * (i + 1)) ops rs
  | _, _ => False
  end.

(** A call that gave a value. *)
Definition gave_value (r : pixel_result) : Prop := exists v, r = RValue v.
