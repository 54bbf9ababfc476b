(** Specification side for the decoder of the [image] crate: which HDU is shown, and where every
    value of it is written. *)

From Verif Require Import Base Text Card Reader Header Xtension Bytes Fits ImageIt BinTable Float Tile ImageInt.
From Verif Require Import SpecCard SpecXt SpecFits SpecImage.

(** ** Layout *)

(** The results of [n] calls of an iterator. *)
Fixpoint pulls {S} (pull : S -> out (option (list Z)) * S) (n : nat) (s : S) : list (out (option (list Z))) :=
  match n with O => [] | Datatypes.S n' => fst (pull s) :: pulls pull n' (snd (pull s)) end.

(** The iterator gives these samples, of [p] bytes each, and then the end for ever. *)
Definition gives {S} (pull : S -> out (option (list Z)) * S) (s : S) (p : Z) (samples : list (list Z)) : Prop :=
  Forall (fun v => len v = p) samples /\
  forall n, pulls pull n s = firstn n (map (fun v => Some (Ok (Some v))) samples ++ repeat (Some (Ok None)) n).

(** [after] is the buffer [before] with samples of [p] bytes written over it, in pixels of [ch]
    channels: channel [c] of pixel [i] holds sample number [src n c i], where [n] is the number of
    pixels.  What there is no sample for stays as it was, and so do bytes beyond the last whole
    pixel. *)
Definition laid_out (p ch : Z) (src : Z -> Z -> Z -> Z) (samples : list (list Z)) (before after : list Z) : Prop :=
  let n := len before / (p * ch) in
  len after = len before /\
  (forall i c, 0 <= i < n -> 0 <= c < ch ->
     slice after (p * (ch * i + c)) p
     = match nth_error samples (Z.to_nat (src n c i)) with
       | Some v => v
       | None => slice before (p * (ch * i + c)) p
       end) /\
  skipn (Z.to_nat (p * ch * n)) after = skipn (Z.to_nat (p * ch * n)) before.

(** Plane after plane, and one plane (in order, or the same in all channels). *)
Definition by_plane (n c i : Z) : Z := c * n + i.
Definition one_plane (n c i : Z) : Z := i.

(** Bytes per sample and samples per pixel of the decoded image. *)
Definition depth (b : bitpix) : Z := match b with BU8 => 1 | BI16 => 2 | _ => 4 end.
Definition channels (b : bitpix) (rgb : bool) : Z :=
  if rgb then 3 else match b with BU8 | BI16 => 1 | _ => 3 end.
Definition place (rgb : bool) : Z -> Z -> Z -> Z := if rgb then by_plane else one_plane.

(** The number with these bytes, least significant first. *)
Fixpoint le_value (bs : list Z) : Z := match bs with [] => 0 | b :: r => b + 256 * le_value r end.

(** ** Choice of the HDU *)

(** An image with data, or a tile-compressed image. *)
Definition suitable (m : mode) (h : hdu) : Prop :=
  ((h_kind h = HPrimary \/ h_kind h = HImage) /\ exists n, hdu_size m h = Ok n /\ n <> 0) \/
  (h_kind h = HBinTable /\ exists t z, h_xt h = XtBin t /\ bt_zimage t = Some z).

(** Axes and pixel type of the image in an HDU. *)
Definition pictures (h : hdu) (axes : list Z) (b : bitpix) : Prop :=
  (exists im, h_xt h = XtImage im /\ axes = im_naxisn im /\ b = im_bitpix im) \/
  (exists t z, h_xt h = XtBin t /\ bt_zimage t = Some z /\ axes = z_naxisn z /\ b = z_bitpix z).

(** Axes that can be shown, as width, height and colour. *)
Definition shows (axes : list Z) (w h : Z) (rgb : bool) : Prop :=
  w < 2 ^ 32 /\ h < 2 ^ 32 /\
  ((axes = [w; h] /\ rgb = false) \/ (axes = [w; h; 1] /\ rgb = false) \/ (axes = [w; h; 3] /\ rgb = true)).

(** The outcome of opening a file whose first suitable HDU is [h], found in state [f]. *)
Definition opens_with (r : option (res decoder)) (h : hdu) (f : fits) : Prop :=
  exists axes b, pictures h axes b /\
    match r with
    | Some (Ok d) => shows axes (de_width d) (de_height d) (de_rgb d) /\ de_bitpix d = b /\ de_hdu d = h /\ de_fits d = f
    | Some (Err e) => e = EDynamic /\ forall w ht rgb, ~ shows axes w ht rgb
    | _ => False
    end.

(** ** Scaling keywords *)

(** The keyword has this value, or is absent and the default holds. *)
Definition keyword_float (vs : vmap) (k : str) (default x : spec_float) : Prop :=
  match get vs k with
  | None => x = default
  | Some (VFloat f _) => x = f64_of_fval f
  | Some (VInteger i _) => x = f64_of_dec (i <? 0) (Z.abs i) 0
  | _ => False
  end.
Definition scaling (vs : vmap) (sc : scale) : Prop :=
  keyword_float vs (chars "BZERO") (S754_zero false) (sc_zero sc) /\
  keyword_float vs (chars "BSCALE") (f64_of_int 1) (sc_scale sc).

(** [x] is exactly the integer [n]. *)
Definition is_integer (x : spec_float) (n : Z) : Prop :=
  match x with
  | S754_zero _ => n = 0
  | S754_finite s mant e =>
    (if s then - Zpos mant else Zpos mant) * 2 ^ Z.max 0 e = n * 2 ^ Z.max 0 (- e)
  | _ => False
  end.
Definition limited (lo hi n : Z) : Z := if n <? lo then lo else if hi <? n then hi else n.

(** The keyword denotes the integer [n], as an integer or as a real number. *)
Definition denotes (f : fval) (n : Z) : Prop :=
  match f with
  | FDec neg m e => 0 <= m /\ (if neg then - m else m) * 10 ^ Z.max 0 e = n * 10 ^ Z.max 0 (- e)
  | _ => False
  end.
Definition keyword_integer (vs : vmap) (k : str) (default n : Z) : Prop :=
  match get vs k with
  | None => n = default
  | Some (VFloat f _) => denotes f n
  | Some (VInteger i _) => n = i
  | _ => False
  end.

(** ** The meaning of a sample *)

(** [k] is the integer nearest to [x], and of two the one farther from 0. *)
Definition nearest (x : spec_float) (k : Z) : Prop :=
  match x with
  | S754_zero _ => k = 0
  | S754_finite s mant e =>
    exists j, 0 <= j /\ k = (if s then - j else j) /\
      (let num := Zpos mant * 2 ^ Z.max 0 e in let den := 2 ^ Z.max 0 (- e) in
       2 * num - den < 2 * j * den <= 2 * num + den)
  | _ => False
  end.
(** [n] is [x] as an unsigned number up to [hi]. *)
Definition unsigned (hi : Z) (x : spec_float) (n : Z) : Prop :=
  match x with
  | S754_nan => n = 0
  | S754_infinity s => n = if s then 0 else hi
  | _ => exists k, nearest x k /\ n = limited 0 hi k
  end.
(** [v * s + z], and this as a fraction of the greatest value of the type. *)
Definition physical (sc : scale) (v : Z) : spec_float := f64_mul_add (f64_of_int v) (sc_scale sc) (sc_zero sc).
Definition fraction (sc : scale) (max v : Z) : spec_float :=
  f64_mul_add (f64_of_int v) (f64_div (sc_scale sc) (f64_of_int max)) (f64_div (sc_zero sc) (f64_of_int max)).

(** The sample [n] shows the value [v]. *)
Definition sample_value (b : bitpix) (sc : scale) (v n : Z) : Prop :=
  match b with
  | BU8 => unsigned 255 (physical sc v) n
  | BI16 => unsigned 65535 (physical sc v) n
  | BI32 => f32_of_bits n = f32_of_f64 (fraction sc (2 ^ 31 - 1) v)
  | BI64 => f32_of_bits n = f32_of_f64 (fraction sc (2 ^ 63 - 1) v)
  | BF32 => n = v
  | BF64 => f32_of_bits n = f32_of_f64 (f64_of_bits v)
  end.
