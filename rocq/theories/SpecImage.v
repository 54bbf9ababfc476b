(** Specification side for image and ASCII table data (FITS standard sections 5 and 7.2). *)

From Verif Require Import Base Text Card Reader Header Xtension Bytes Fits ImageIt SpecXt.

(** Bytes per element. *)
Definition width (b : bitpix) : Z :=
  match b with BU8 => 1 | BI16 => 2 | BI32 | BF32 => 4 | BI64 | BF64 => 8 end.

(** The [n] bytes of a number, most significant first; negative numbers in two's complement. *)
Definition be_bytes (n : nat) (v : Z) : list Z :=
  map (fun i => v / 256 ^ (Z.of_nat n - 1 - Z.of_nat i) mod 256) (seq 0 n).

(** The values of each type; floats are bit patterns. *)
Definition in_range (b : bitpix) (v : Z) : Prop :=
  match b with
  | BU8 => 0 <= v < 256
  | BI16 => - 2 ^ 15 <= v < 2 ^ 15
  | BI32 => - 2 ^ 31 <= v < 2 ^ 31
  | BI64 => - 2 ^ 63 <= v < 2 ^ 63
  | BF32 => 0 <= v < 2 ^ 32
  | BF64 => 0 <= v < 2 ^ 64
  end.
Definition encode (b : bitpix) (v : Z) : list Z := be_bytes (Z.to_nat (width b)) v.

(** [values] are stored from byte [o] of [d] on. *)
Definition stored (d : list Z) (o : Z) (b : bitpix) (values : list Z) : Prop :=
  0 <= o /\ o + width b * len values <= len d /\ Forall (in_range b) values /\
  slice d o (width b * len values) = concat (map (encode b) values).

(** Number of pixels of an image. *)
Definition pixel_count (im : image) : Z :=
  if len (im_naxisn im) =? 0 then 0 else product (im_naxisn im).

(** The size of the data unit fits 64 bits, and so does every partial product. *)
Definition size_fits (im : image) : Prop :=
  (forall l r, im_naxisn im = l ++ r -> product l < 2 ^ 64) /\
  width (im_bitpix im) * pixel_count im < 2 ^ 64.

(** Operations of a caller on a pixel iterator, and what they give. *)
Inductive pixel_op := PNext | PRead (i : Z).
Inductive pixel_result := RValue (v : Z) | REnd | RError | RPanic.

Definition pixel_do (m : mode) (s : it) (o : pixel_op) : pixel_result * it :=
  match o with
  | PNext => match it_next s with (Some v, s') => (RValue v, s') | (None, s') => (REnd, s') end
  | PRead i => match read_value m s i with
               | (Ok v, s') => (RValue v, s')
               | (Err _, s') => (RError, s')
               | (Panic, s') => (RPanic, s')
               end
  end.
Fixpoint pixel_run (m : mode) (s : it) (ops : list pixel_op) : list pixel_result * it :=
  match ops with
  | [] => ([], s)
  | o :: r => let (x, s1) := pixel_do m s o in let (l, s2) := pixel_run m s1 r in (x :: l, s2)
  end.

(** What they should give: [c] is the number of the next value. *)
Fixpoint pixel_spec (values : list Z) (c : nat) (ops : list pixel_op) : list pixel_result :=
  match ops with
  | [] => []
  | PNext :: r => match nth_error values c with
                  | Some v => RValue v :: pixel_spec values (S c) r
                  | None => REnd :: pixel_spec values c r
                  end
  | PRead i :: r => match nth_error values (Z.to_nat i) with
                    | Some v => RValue v :: pixel_spec values (S (Z.to_nat i)) r
                    | None => RError :: pixel_spec values c r
                    end
  end.
(** Indices are unsigned 64-bit numbers. *)
Definition op_ok (o : pixel_op) : Prop := match o with PNext => True | PRead i => u64 i end.

(** Successive reads from an ASCII table, each into a buffer of the given size. *)
Fixpoint ascii_run (t : taker) (sizes : list Z) : list (list Z) * taker :=
  match sizes with
  | [] => ([], t)
  | n :: r => let (bs, t1) := buf_read t n in let (l, t2) := ascii_run t1 r in (bs :: l, t2)
  end.
