(** RICE compression of integers, after section 10.4.1 of the FITS standard 4.0 and the CFITSIO
    encoder: what a compressed tile looks like, bit by bit. *)

From Verif Require Import Base Bytes Rice.

(** The [w] low bits of [v], most significant first. *)
Fixpoint bits_of (w : nat) (v : Z) : list bool :=
  match w with O => [] | S k => Z.testbit v (Z.of_nat k) :: bits_of k v end.

(** The bits of a byte string. *)
Definition bit_stream (bytes : list Z) : list bool := flat_map (bits_of 8) bytes.

(** Parameters of the three pixel types: bits of a pixel, bits of the level code, code of raw blocks
    minus one. *)
Definition pixel_bits (t : rty) : Z := match t with RU8 => 8 | RI16 => 16 | RI32 => 32 end.
Definition code_bits (t : rty) : nat := match t with RU8 => 3 | RI16 => 4 | RI32 => 5 end.
Definition raw_level (t : rty) : Z := match t with RU8 => 6 | RI16 => 14 | RI32 => 25 end.

(** The difference of two pixels, as a signed number of the pixel's width. *)
Definition difference (t : rty) (prev cur : Z) : Z :=
  let w := pixel_bits t in (cur - prev + 2 ^ (w - 1)) mod 2 ^ w - 2 ^ (w - 1).
(** Differences are mapped to non-negative numbers: 0, -1, 1, -2, ... to 0, 1, 2, 3, ... *)
Definition mapped (d : Z) : Z := if d <? 0 then - 2 * d - 1 else 2 * d.
Fixpoint mapped_differences (t : rty) (prev : Z) (l : list Z) : list Z :=
  match l with [] => [] | x :: r => mapped (difference t prev x) :: mapped_differences t x r end.

(** How a block is coded: all differences zero, a split level, or raw. *)
Inductive coding := AllZero | SplitAt (fs : Z) | Raw.

Definition coding_ok (t : rty) (c : coding) (vs : list Z) : Prop :=
  match c with
  | AllZero => Forall (fun v => v = 0) vs
  | SplitAt fs => 0 <= fs < raw_level t
  | Raw => True
  end.

(** A number split at level [fs]: its high part in unary, a one, its [fs] low bits. *)
Definition split_code (fs v : Z) : list bool :=
  repeat false (Z.to_nat (v / 2 ^ fs)) ++ true :: bits_of (Z.to_nat fs) v.

Definition block_code (t : rty) (c : coding) (vs : list Z) : list bool :=
  match c with
  | AllZero => bits_of (code_bits t) 0
  | SplitAt fs => bits_of (code_bits t) (fs + 1) ++ flat_map (split_code fs) vs
  | Raw => bits_of (code_bits t) (raw_level t + 1) ++ flat_map (bits_of (Z.to_nat (pixel_bits t))) vs
  end.

(** The code of a sequence of blocks; [prev] is the pixel before. *)
Fixpoint blocks_code (t : rty) (prev : Z) (blocks : list (coding * list Z)) : list bool :=
  match blocks with
  | [] => []
  | (c, px) :: r =>
    block_code t c (mapped_differences t prev px) ++ blocks_code t (last px prev) r
  end.

(** Every block has [nblock] pixels, but the last may have fewer (and at least one). *)
Fixpoint blocks_ok (t : rty) (nblock prev : Z) (blocks : list (coding * list Z)) : Prop :=
  match blocks with
  | [] => True
  | (c, px) :: r =>
    (if r then 1 <= len px <= nblock else len px = nblock) /\
    coding_ok t c (mapped_differences t prev px) /\ blocks_ok t nblock (last px prev) r
  end.

(** The pixels of the type. *)
Definition pixel_ok (t : rty) (x : Z) : Prop :=
  match t with
  | RU8 => 0 <= x < 256
  | RI16 => - 2 ^ 15 <= x < 2 ^ 15
  | RI32 => - 2 ^ 31 <= x < 2 ^ 31
  end.

(** The value whose big-endian bytes are [bs], modulo its size. *)
Fixpoint be_value (bs : list Z) : Z :=
  match bs with [] => 0 | b :: r => b * 256 ^ len r + be_value r end.

(** The pixels of a sequence of blocks. *)
Definition block_pixels (blocks : list (coding * list Z)) : list Z := flat_map snd blocks.

(** [bytes] is the compressed form of the blocks: the first pixel [x0] as it is, then the code of the
    blocks, followed by anything. *)
Definition compressed (t : rty) (nblock x0 : Z) (blocks : list (coding * list Z)) (bytes : list Z) : Prop :=
  exists head data rest,
    hd_error (block_pixels blocks) = Some x0 /\
    bytes = head ++ data /\ len head = pixel_bits t / 8 /\ be_value head = x0 mod 2 ^ pixel_bits t /\
    blocks_ok t nblock x0 blocks /\ bit_stream data = blocks_code t x0 blocks ++ rest.

(** Little-endian bytes of pixels, as the decoder's caller reads them back. *)
Definition byte_of (z k : Z) : Z := z / 256 ^ k mod 256.
Definition pixel_bytes (t : rty) (x : Z) : list Z :=
  map (byte_of x) (match t with RU8 => [0] | RI16 => [0; 1] | RI32 => [0; 1; 2; 3] end).

(** For builds with overflow checks: neighbouring pixels differ by less than the type's range, and
    no unary part exceeds the 31-bit counter of the decoder. *)
Fixpoint gentle (prev : Z) (l : list Z) : Prop :=
  match l with [] => True | x :: r => - 2 ^ 31 <= x - prev < 2 ^ 31 /\ gentle x r end.
Fixpoint short_runs (t : rty) (prev : Z) (blocks : list (coding * list Z)) : Prop :=
  match blocks with
  | [] => True
  | (c, px) :: r =>
    match c with
    | SplitAt fs => Forall (fun v => v / 2 ^ fs <= 2 ^ 31 - 16) (mapped_differences t prev px)
    | _ => True
    end /\ short_runs t (last px prev) r
  end.
