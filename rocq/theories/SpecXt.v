(** Specification side for the extension descriptions: decimal keyword indices, sizes and column
    formats, from the FITS standard sections 4.4 and 7. *)

From Verif Require Import Base Text Card Header Xtension SpecCard.

(** The keyword holds this integer / this text (an unrecognised value counts as text). *)
Definition has_int (vs : vmap) (k : str) (z : Z) : Prop := exists c, get vs k = Some (VInteger z c).
Definition has_text (vs : vmap) (k : str) (s : str) : Prop :=
  (exists c, get vs k = Some (VString s c)) \/ get vs k = Some (VInvalid s).

(** [s] is the decimal spelling of [n] without leading zeros. *)
Definition decimal (n : Z) (s : str) : Prop :=
  exists ds, s = digit_chars ds /\ Forall digit ds /\ ds <> [] /\ dec_value ds = n /\
    (ds = [0] \/ exists d r, ds = d :: r /\ d <> 0).

Definition u64 (n : Z) : Prop := 0 <= n < 2 ^ 64.

Fixpoint product (l : list Z) : Z := match l with [] => 1 | x :: r => x * product r end.
Fixpoint total (l : list Z) : Z := match l with [] => 0 | x :: r => x + total r end.

(** The axes [NAXIS<i>], [NAXIS<i+1>], ... *)
Fixpoint axes_from (vs : vmap) (name : str) (i : Z) (l : list Z) : Prop :=
  match l with
  | [] => True
  | a :: r => has_int vs (indexed name i) a /\ u64 a /\ axes_from vs name (i + 1) r
  end.

(** Column formats of binary tables (table 18 of the standard). *)
Definition type_letter (t : ety) : Z :=
  match t with
  | TyL => 76 | TyX => 88 | TyB => 66 | TyI => 73 | TyJ => 74 | TyK => 75 | TyA => 65
  | TyE => 69 | TyD => 68 | TyC => 67 | TyM => 77
  end.
Definition type_bits (t : ety) : Z :=
  match t with
  | TyX => 1 | TyL | TyB | TyA => 8 | TyI => 16 | TyJ | TyE => 32 | TyK | TyD | TyC => 64 | TyM => 128
  end.
Definition field_bits (f : tform) : Z :=
  match f with TElem t n => n * type_bits t | TDesc32 _ => 64 | TDesc64 _ => 128 end.

(** The repeat count written with the digits [ds]; default 1, also when it does not fit. *)
Definition repeat_of (ds : list Z) : Z :=
  match ds with [] => 1 | _ => if dec_value ds <? 2 ^ 64 then dec_value ds else 1 end.

Definition tform_spelled (f : tform) (s : str) : Prop :=
  exists ds rest, Forall digit ds /\
    match f with
    | TElem t n => n = repeat_of ds /\ s = digit_chars ds ++ type_letter t :: rest
    | TDesc32 t => s = digit_chars ds ++ 80 :: type_letter t :: rest
    | TDesc64 t => s = digit_chars ds ++ 81 :: type_letter t :: rest
    end.

(** An unsigned 64-bit number with an optional plus sign. *)
Definition unsigned_text (n : Z) (s : str) : Prop :=
  exists plus ds, s = plus ++ digit_chars ds /\ (plus = [] \/ plus = [43]) /\ Forall digit ds /\
    ds <> [] /\ dec_value ds = n /\ n < 2 ^ 64.

(** Column formats of ASCII tables (table 15 of the standard). *)
Definition atform_spelled (f : atform) (s : str) : Prop :=
  match f with
  | ACharacter w => exists u, s = 65 :: u /\ unsigned_text w u
  | ADecimalInteger w => exists u, s = 73 :: u /\ unsigned_text w u
  | AFixed w d => exists u v, s = 70 :: u ++ 46 :: v /\ unsigned_text w u /\ unsigned_text d v
  | AExpE w d => exists u v, s = 69 :: u ++ 46 :: v /\ unsigned_text w u /\ unsigned_text d v
  | AExpD w d => exists u v, s = 68 :: u ++ 46 :: v /\ unsigned_text w u /\ unsigned_text d v
  end.

(** Column [i] of a binary table is described by [f] and [name]. *)
Definition column (vs : vmap) (i : Z) (f : tform) (name : option str) : Prop :=
  (exists s, has_text vs (indexed (chars "TFORM") i) s /\ tform_spelled f s) /\
  match name with
  | Some n => has_text vs (indexed (chars "TTYPE") i) n
  | None => forall n, ~ has_text vs (indexed (chars "TTYPE") i) n
  end.

(** Column [i] of an ASCII table: start and format. *)
Definition acolumn (vs : vmap) (i : Z) (start : Z) (f : atform) : Prop :=
  has_int vs (indexed (chars "TBCOL") i) start /\ u64 start /\
  exists s t, has_text vs (indexed (chars "TFORM") i) s /\
    stripped_right (fun c => is_unicode_ws c = true) s t /\ atform_spelled f t.

(** [l] lists, in order, the described columns among [i], ..., [i + n - 1]; the others are
    left out. *)
Inductive columns {A} (descr : Z -> A -> Prop) : nat -> Z -> list A -> Prop :=
| columns_end i : columns descr 0 i []
| columns_take n i a l : descr i a -> columns descr n (i + 1) l -> columns descr (S n) i (a :: l)
| columns_drop n i l : (forall a, ~ descr i a) -> columns descr n (i + 1) l -> columns descr (S n) i l.

(** ** Tile-compressed images (section 10.1 of the standard) *)

(** Some ZNAME<j> holds BLOCKSIZE and ZVAL<j> the number [n]. *)
Definition blocksize_given (vs : vmap) (n : Z) : Prop :=
  exists j c, get vs (chars "ZNAME" ++ j) = Some (VString (chars "BLOCKSIZE") c) /\
              has_int vs (chars "ZVAL" ++ j) n /\ 0 <= n < 256.

Definition compression_given (vs : vmap) (c : zcmp) : Prop :=
  exists s cm t, get vs (chars "ZCMPTYPE") = Some (VString s cm) /\ stripped_right white s t /\
    match c with
    | ZGzip1 => t = chars "GZIP_1"
    | ZGzip2 => t = chars "GZIP_2"
    | ZRice b p => (t = chars "RICE_1" \/ t = chars "RICE_ONE") /\ p = 4 /\
                   (blocksize_given vs b \/ (forall n, ~ blocksize_given vs n) /\ b = 32)
    | ZPlio1 => t = chars "PLI0_1"
    | ZHcompress1 => t = chars "HCOMPRESS_1"
    end.

(** The axes ZNAXIS<i>, ... and the tile sizes ZTILE<i>, ... with their row-by-row defaults. *)
Fixpoint tiles_given (vs : vmap) (i : Z) (axes tiles : list Z) : Prop :=
  match axes, tiles with
  | [], [] => True
  | a :: axes', t :: tiles' =>
    has_int vs (indexed (chars "ZNAXIS") i) a /\ u64 a /\
    (has_int vs (indexed (chars "ZTILE") i) t /\ u64 t \/
     (forall z, has_int vs (indexed (chars "ZTILE") i) z -> ~ u64 z) /\ t = (if i =? 1 then a else 1)) /\
    tiles_given vs (i + 1) axes' tiles'
  | _, _ => False
  end.

(** [i] is the position of the first column of that name. *)
Definition first_named (l : list (option str)) (name : str) (i : Z) : Prop :=
  0 <= i /\ nth_error l (Z.to_nat i) = Some (Some name) /\
  forall j, 0 <= j < i -> nth_error l (Z.to_nat j) <> Some (Some name).
Definition data_column (l : list (option str)) (i : Z) : Prop :=
  first_named l (chars "COMPRESSED_DATA") i \/
  (~ In (Some (chars "COMPRESSED_DATA")) l /\ first_named l (chars "GZIP_COMPRESSED_DATA") i).

(** Everything the header says about the compressed image except ZQUANTIZ. *)
Definition image_given (vs : vmap) (columns : list (option str)) (z : zimage) : Prop :=
  compression_given vs (z_cmp z) /\
  match z_cmp z with ZGzip1 | ZGzip2 | ZRice _ _ => True | _ => False end /\
  has_int vs (chars "ZBITPIX") (bitpix_code (z_bitpix z)) /\ z_bitpix z <> BI64 /\
  has_int vs (chars "ZNAXIS") (len (z_naxisn z)) /\ u64 (len (z_naxisn z)) /\
  tiles_given vs 1 (z_naxisn z) (z_tilen z) /\
  match z_dither0 z with
  | Some d => has_int vs (chars "ZDITHER0") d /\ - 2 ^ 63 <= d < 2 ^ 63
  | None => forall d, has_int vs (chars "ZDITHER0") d -> ~ - 2 ^ 63 <= d < 2 ^ 63
  end /\
  data_column columns (z_data_idx z).

(** Bytes of a column in each row of a standard table: bits are filled up to a byte. *)
Definition field_bytes (f : tform) : Z := (field_bits f + 7) / 8.

(** The mandatory keywords of a standard binary table with these columns, in the ranges the
    crate can hold. *)
Definition standard_bintable (vs : vmap) (n1 n2 pc tf : Z) (cols : list (tform * option str)) : Prop :=
  has_int vs (chars "BITPIX") 8 /\ has_int vs (chars "NAXIS") 2 /\
  has_int vs (chars "NAXIS1") n1 /\ u64 n1 /\ has_int vs (chars "NAXIS2") n2 /\ u64 n2 /\
  has_int vs (chars "PCOUNT") pc /\ u64 pc /\ has_int vs (chars "GCOUNT") 1 /\
  has_int vs (chars "TFIELDS") tf /\ u64 tf /\
  columns (fun i a => column vs i (fst a) (snd a)) (Z.to_nat tf) 1 cols /\
  n1 = total (map field_bytes (map fst cols)) /\
  n1 * n2 < 2 ^ 64 /\ n1 < 2 ^ 61 /\
  (forall z, has_int vs (chars "ZNAXIS") z -> z < 2 ^ 60).
