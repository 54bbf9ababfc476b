(** Model of the decoder for the [image] crate: [src/image_integration.rs].  The hooks, the debug
    wrapper of the reader and the conversion of errors (lines 23-51 and 63-77) are left out. *)

From Verif Require Import Base Text Card Reader Header Xtension Bytes Fits ImageIt BinTable Float Tile.

(** ** The image to decode *)

(** Lines 53-61: [is_rgb]. *)
Definition is_rgb (extra : list Z) : res bool :=
  match extra with
  | [] => Ok false
  | [n] => if n =? 1 then Ok false else if n =? 3 then Ok true else Err EDynamic
  | _ => Err EDynamic
  end.

(** Lines 79-82. *)
Inductive image_kind := KImage (im : image) | KTiles (t : bintable) (z : zimage).

(** Lines 84-99: [axes_and_bitpix]. *)
Definition axes_and_bitpix (k : image_kind) : list Z * bitpix :=
  match k with
  | KImage im => (im_naxisn im, im_bitpix im)
  | KTiles _ z => (z_naxisn z, z_bitpix z)
  end.

(** Lines 116-130: the HDUs the loop stops at. *)
Definition stops_at (m : mode) (h : hdu) : res (option image_kind) :=
  match h_kind h, h_xt h with
  | HPrimary, XtImage im | HImage, XtImage im =>
    let! n := hdu_size m h in Ok (if n =? 0 then None else Some (KImage im))
  | HBinTable, XtBin t => Ok (match bt_zimage t with Some z => Some (KTiles t z) | None => None end)
  | _, _ => Ok None
  end.

(** Lines 115-134: the loop.  The outer [None]: more than [fuel] HDUs. *)
Fixpoint find_image (m : mode) (fuel : nat) (f : fits) : option (res (hdu * image_kind * fits)) :=
  match fuel with
  | O => None
  | S fuel' =>
    match next m f with
    | (IErr e, _) => Some (Err e)
    | (IPanic, _) => Some Panic
    | (INone, _) => Some (Err EDynamic)
    | (IOk h, f') =>
      match stops_at m h with
      | Ok (Some k) => Some (Ok (h, k, f'))
      | Ok None => find_image m fuel' f'
      | Err e => Some (Err e)
      | Panic => Some Panic
      end
    end
  end.

(** Lines 101-108. *)
Record decoder := mk_decoder {
  de_width : Z; de_height : Z; de_rgb : bool; de_bitpix : bitpix; de_fits : fits; de_hdu : hdu; de_kind : image_kind }.

(** [u32::try_from]. *)
Definition to_u32 (z : Z) : res Z := if z <? 2 ^ 32 then Ok z else Err EDynamic.

(** Lines 136-153. *)
Definition describe (h : hdu) (k : image_kind) (f : fits) : res decoder :=
  match fst (axes_and_bitpix k) with
  | w :: ht :: extra =>
    let! rgb := is_rgb extra in
    let! w' := to_u32 w in
    let! h' := to_u32 ht in
    Ok (mk_decoder w' h' rgb (snd (axes_and_bitpix k)) f h k)
  | _ => Err EDynamic
  end.

(** Lines 110-155: [FitsDecoder::new]. *)
Definition decoder_new (m : mode) (fuel : nat) (r : reader) : option (res decoder) :=
  match find_image m fuel (from_reader r) with
  | Some (Ok (h, k, f)) => Some (describe h k f)
  | Some (Err e) => Some (Err e)
  | Some Panic => Some Panic
  | None => None
  end.

(** Lines 327-344: [color_type]; the other three variants of each are not used. *)
Inductive color := L8 | Rgb8 | L16 | Rgb16 | Rgb32F.
Definition color_type (d : decoder) : color :=
  match de_bitpix d with
  | BU8 => if de_rgb d then Rgb8 else L8
  | BI16 => if de_rgb d then Rgb16 else L16
  | _ => Rgb32F
  end.
(** [ColorType::bytes_per_pixel] and the buffer size the [image] crate uses (library code; its
    multiplication saturates, which is left out). *)
Definition bytes_per_pixel (c : color) : Z :=
  match c with L8 => 1 | Rgb8 => 3 | L16 => 2 | Rgb16 => 6 | Rgb32F => 12 end.
Definition total_bytes (d : decoder) : Z := de_width d * de_height d * bytes_per_pixel (color_type d).

(** ** Scaling *)

(** Lines 157-175: [Scale], deserialised from the value table; absent keywords take the defaults. *)
Record scale := mk_scale { sc_zero : spec_float; sc_scale : spec_float }.
Definition default_scale : scale := mk_scale (S754_zero false) (f64_of_int 1).
Definition scale_field (vs : vmap) (k : str) (default : spec_float) : res spec_float :=
  match get vs k with
  | Some v => let! x := de_f64 v in Ok (f64_of_fval x)
  | None => Ok default
  end.
Definition scale_of (vs : vmap) : res scale :=
  let! z := scale_field vs (chars "BZERO") (sc_zero default_scale) in
  let! s := scale_field vs (chars "BSCALE") (sc_scale default_scale) in
  Ok (mk_scale z s).
(** [scale != Scale::default()], by the comparison of floats. *)
Definition needs_scale (sc : scale) : bool :=
  negb (SFeqb (sc_zero sc) (sc_zero default_scale) && SFeqb (sc_scale sc) (sc_scale default_scale)).
(** Lines 177-182 and 184-188. *)
Definition scale_div (sc : scale) (x : spec_float) : scale := mk_scale (f64_div (sc_zero sc) x) (f64_div (sc_scale sc) x).
Definition apply_scale (sc : scale) (v : Z) : spec_float := f64_mul_add (f64_of_int v) (sc_scale sc) (sc_zero sc).

(** [to_le_bytes] of an unsigned number. *)
Fixpoint le_bytes (n : nat) (z : Z) : list Z :=
  match n with O => [] | S n' => z mod 256 :: le_bytes n' (z / 256) end.

(** The closures of lines 232-238, 248-255, 266, 278, 288 and 292: the bytes written for a value. *)
Definition sample_u8 (sc : scale) (v : Z) : list Z :=
  [if needs_scale sc then f_round_unsigned 255 (apply_scale sc v) else v].
Definition sample_i16 (sc : scale) (v : Z) : list Z :=
  le_bytes 2 (if needs_scale sc then f_round_unsigned 65535 (apply_scale sc v) else if v <? 0 then 0 else v).
Definition sample_f32 (x : spec_float) : list Z := le_bytes 4 (bits_of_f32 x).
Definition sample_i32 (sc : scale) (v : Z) : list Z :=
  sample_f32 (f32_of_f64 (apply_scale (scale_div sc (f64_of_int (2 ^ 31 - 1))) v)).
Definition sample_i64 (sc : scale) (v : Z) : list Z :=
  sample_f32 (f32_of_f64 (apply_scale (scale_div sc (f64_of_int (2 ^ 63 - 1))) v)).

(** The bytes written for a pixel of an image, which gives floats by their bit pattern (lines
    353-360)... *)
Definition image_sample (b : bitpix) (sc : scale) (v : Z) : list Z :=
  match b with
  | BU8 => sample_u8 sc v
  | BI16 => sample_i16 sc v
  | BI32 => sample_i32 sc v
  | BI64 => sample_i64 sc v
  | BF32 => le_bytes 4 v
  | BF64 => sample_f32 (f32_of_f64 (f64_of_bits v))
  end.
(** ... and of a tile-compressed image (lines 366-374). *)
Definition tile_sample (b : bitpix) (sc : scale) (p : pixel) : list Z :=
  match p with
  | PInt v => match b with BU8 => sample_u8 sc v | BI16 => sample_i16 sc v | _ => sample_i32 sc v end
  | PFloat x => sample_f32 x
  end.
Definition sample_width (b : bitpix) : nat := match b with BU8 => 1 | BI16 => 2 | _ => 4 end.

(** ** Writing into the buffer *)

(** [as_chunks_mut]: the whole chunks of [n] elements, and the remaining elements (library code). *)
Fixpoint chunks {A} (count n : nat) (l : list A) : list (list A) :=
  match count with O => [] | S c => firstn n l :: chunks c n (skipn n l) end.
Definition as_chunks {A} (n : nat) (l : list A) : list (list A) * list A :=
  (chunks (length l / n) n l, skipn (length l / n * n) l).

(** The outcome of a loop over an iterator that may need fuel. *)
Definition out (A : Type) := option (res A).

Section Write.
  (** An iterator of the bytes of samples. *)
  Variable S : Type.
  Variable pull : S -> out (option (list Z)) * S.

  (** [for (p, v) in l.iter_mut().zip(&mut iter) { put }]: [zip] asks [l] first. *)
  Fixpoint zip_write {A} (put : A -> list Z -> A) (l : list A) (s : S) : out (list A) * S :=
    match l with
    | [] => (Some (Ok []), s)
    | p :: l' =>
      match pull s with
      | (Some (Ok (Some v)), s1) =>
        match zip_write put l' s1 with
        | (Some (Ok r), s2) => (Some (Ok (put p v :: r)), s2)
        | x => x
        end
      | (Some (Ok None), s1) => (Some (Ok l), s1)
      | (Some (Err e), s1) => (Some (Err e), s1)
      | (Some Panic, s1) => (Some Panic, s1)
      | (None, s1) => (None, s1)
      end
    end.

  (** [pixel[channel] = v]. *)
  Fixpoint set_nth {A} (n : nat) (v : A) (l : list A) : list A :=
    match l, n with
    | [], _ => []
    | _ :: r, O => v :: r
    | x :: r, Datatypes.S n' => x :: set_nth n' v r
    end.

  (** Lines 196-202: the loop over the channels. *)
  Fixpoint write_channels (channels : list nat) (pixels : list (list (list Z))) (s : S)
    : out (list (list (list Z))) * S :=
    match channels with
    | [] => (Some (Ok pixels), s)
    | c :: r =>
      match zip_write (fun p v => set_nth c v p) pixels s with
      | (Some (Ok ps), s1) => write_channels r ps s1
      | x => x
      end
    end.

  (** The buffer with its chunks [f] of [p] bytes rewritten. *)
  Definition finish {A} (x : out A * S) (f : A -> list Z) : out (list Z) :=
    match fst x with
    | Some (Ok a) => Some (Ok (f a))
    | Some (Err e) => Some (Err e)
    | Some Panic => Some Panic
    | None => None
    end.

  (** Lines 192-203: [write_rgb]. *)
  Definition write_rgb (p : nat) (buf : list Z) (s : S) : out (list Z) :=
    let (cs, rest) := as_chunks p buf in
    let (ps, rest2) := as_chunks 3 cs in
    finish (write_channels [0; 1; 2]%nat ps s) (fun ps' => concat (concat ps') ++ concat rest2 ++ rest).

  (** Lines 205-210: [write_luma]. *)
  Definition write_luma (p : nat) (buf : list Z) (s : S) : out (list Z) :=
    let (cs, rest) := as_chunks p buf in
    finish (zip_write (fun _ v => v) cs s) (fun cs' => concat cs' ++ rest).

  (** Lines 212-220: [write_splat]. *)
  Definition write_splat (p : nat) (buf : list Z) (s : S) : out (list Z) :=
    let (cs, rest) := as_chunks p buf in
    let (ps, rest2) := as_chunks 3 cs in
    finish (zip_write (fun _ v => [v; v; v]) ps s) (fun ps' => concat (concat ps') ++ concat rest2 ++ rest).

  (** Lines 226-296: the choice of the layout in [write_u8] ... [write_f32]. *)
  Definition write_pixels (b : bitpix) (rgb : bool) (buf : list Z) (s : S) : out (list Z) :=
    if rgb then write_rgb (sample_width b) buf s
    else match b with
         | BU8 | BI16 => write_luma (sample_width b) buf s
         | _ => write_splat (sample_width b) buf s
         end.
End Write.

(** ** Lines 346-387: [read_image] into the buffer [buf] *)

Definition pull_image (sc : scale) (s : it) : out (option (list Z)) * it :=
  let (v, s') := it_next s in (Some (Ok (option_map (image_sample (it_ty s) sc) v)), s').
Definition pull_tiles (gz : gunzip) (m : mode) (fuel : nat) (b : bitpix) (sc : scale) (s : tiles)
  : out (option (list Z)) * tiles :=
  match tiles_next gz m fuel s with
  | (Some (Ok v), s') => (Some (Ok (option_map (tile_sample b sc) v)), s')
  | (Some (Err e), s') => (Some (Err e), s')
  | (Some Panic, s') => (Some Panic, s')
  | (None, s') => (None, s')
  end.

Definition read_image (gz : gunzip) (m : mode) (fuel : nat) (d : decoder) (buf : list Z) : out (list Z) :=
  match scale_of (h_values (de_hdu d)) with
  | Ok sc =>
    match de_kind d with
    | KImage im =>
      match get_image m (de_fits d) im with
      | Ok id => write_pixels it (pull_image sc) (im_bitpix im) (de_rgb d) buf (id_pixels id)
      | _ => Some Panic
      end
    | KTiles t z =>
      match get_tiles m (de_fits d) (h_values (de_hdu d)) t with
      | Some (Ok s) => write_pixels tiles (pull_tiles gz m fuel (z_bitpix z) sc) (z_bitpix z) (de_rgb d) buf s
      | Some (Err e) => Some (Err e)
      | Some Panic => Some Panic
      | None => Some (Err EDynamic)
      end
    end
  | Err e => Some (Err e)
  | Panic => Some Panic
  end.
