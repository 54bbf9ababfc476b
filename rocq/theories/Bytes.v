(** Big-endian numbers and signed 64-bit arithmetic, used by the data readers. *)

From Verif Require Import Base Header.

(** [u16/u32/u64::from_be_bytes] (library code behind [byteorder::BigEndian]). *)
Definition be_unsigned (bs : list Z) : Z := fold_left (fun a b => a * 256 + b) bs 0.

(** The two's-complement reading of a [size]-byte unsigned number. *)
Definition to_signed (size z : Z) : Z := if z <? 2 ^ (8 * size - 1) then z else z - 2 ^ (8 * size).

(** [src/hdu/data/iter.rs] lines 10-42: the value made of the bytes of one element.  Floats are
    given by their bit pattern. *)
Definition decode (b : bitpix) (bs : list Z) : Z :=
  match b with
  | BU8 | BF32 | BF64 => be_unsigned bs
  | BI16 => to_signed 2 (be_unsigned bs)
  | BI32 => to_signed 4 (be_unsigned bs)
  | BI64 => to_signed 8 (be_unsigned bs)
  end.

(** The value of a signed 64-bit operation whose mathematical result is [z]. *)
Definition i64_result (m : mode) (z : Z) : res Z :=
  if (- 2 ^ 63 <=? z) && (z <? 2 ^ 63) then Ok z
  else match m with Checked => Panic | Wrapping => Ok (to_signed 8 (z mod 2 ^ 64)) end.

(** [x as usize] for a signed 64-bit [x]. *)
Definition as_usize (z : Z) : Z := z mod 2 ^ 64.
