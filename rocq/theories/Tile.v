(** Model of the tile-compressed image reader: [src/hdu/data/bintable/tile_compressed/mod.rs],
    [dithering.rs] and [pixels.rs]. *)

From Coq Require Import String.
From Verif Require Import Base Text Card Reader Header Xtension Bytes Fits ImageIt BinTable Rice Float.

(** ** [dithering.rs] *)

(** Lines 5-22: [random_generator], [n] values from [seed] on. *)
Fixpoint random_from (n : nat) (seed : spec_float) : list spec_float :=
  match n with
  | O => []
  | S n' =>
    let temp := f64_mul (f64_of_int 16807) seed in
    let seed' := f64_sub temp (f64_mul (f64_of_int 2147483647)
                                 (f64_of_int (f_as_i32 (f64_div temp (f64_of_int 2147483647))))) in
    f32_of_f64 (f64_div seed' (f64_of_int 2147483647)) :: random_from n' seed'
  end.
(** Lines 1 and 24. *)
Definition N_RANDOM : Z := 10000.
Definition RAND_VALUES : list spec_float := random_from (Z.to_nat N_RANDOM) (f64_of_int 1).

(** ** [mod.rs] *)

(** Lines 296-301. *)
Inductive quantiz := QNo | QSub1 (i1 : Z) | QSub2 (i1 : Z).

(** Lines 41-91: [F32Keywords] and [F64Keywords], which are the same. *)
Record fkeys := mk_fkeys {
  k_scale_idx : Z; k_zero_idx : Z; k_blank_idx : option Z; k_dither0 : Z; k_quant : zquantiz;
  k_scale : spec_float; k_zero : spec_float; k_blank : option Z; k_state : quantiz }.

Definition set_quantiz (k : fkeys) (q : quantiz) : fkeys :=
  mk_fkeys (k_scale_idx k) (k_zero_idx k) (k_blank_idx k) (k_dither0 k) (k_quant k) (k_scale k) (k_zero k) (k_blank k) q.

(** [((value as f32) - ri + 0.5) * self.scale + self.zero]; 0.5 is 1 * 2^-1. *)
Definition dithered (k : fkeys) (v : Z) (ri : spec_float) : spec_float :=
  f32_add (f32_mul (f32_add (f32_sub (f32_of_int v) ri) (binary_normalize 24 128 1 (-1) false)) (k_scale k)) (k_zero k).

(** Lines 93-128 and 130-165: [unquantize]. *)
Definition unquantize (k : fkeys) (v : Z) : res (spec_float * fkeys) :=
  if match k_blank k with Some b => b =? v | None => false end then Ok (S754_nan, k)
  else
    match k_state k with
    | QNo => Ok (f32_add (f32_mul (f32_of_int v) (k_scale k)) (k_zero k), k)
    | QSub1 i1 =>
      let! ri := index RAND_VALUES i1 in
      Ok (dithered k v ri, set_quantiz k (QSub1 ((i1 + 1) mod N_RANDOM)))
    | QSub2 i1 =>
      if v =? -2147483647 then Ok (S754_zero false, set_quantiz k (QSub2 ((i1 + 1) mod N_RANDOM)))
      else
        let! ri := index RAND_VALUES i1 in
        Ok (dithered k v ri, set_quantiz k (QSub2 ((i1 + 1) mod N_RANDOM)))
    end.

(** Lines 167-207 and 209-249: [F32Keywords::new].  The keyword ZBLANK is an i32. *)
Definition fkeys_new (vs : vmap) (t : bintable) (z : zimage) : res fkeys :=
  match find_field_by_ttype (bt_ttypes t) (chars "ZSCALE"), find_field_by_ttype (bt_ttypes t) (chars "ZZERO") with
  | Some sc, Some ze =>
    let bi := find_field_by_ttype (bt_ttypes t) (chars "ZBLANK") in
    Ok (mk_fkeys sc ze bi (match z_dither0 z with Some d => d | None => 0 end)
          (match z_quant z with Some q => q | None => ZNoDither end)
          (f32_of_int 1) (S754_zero false)
          (match bi with
           | Some _ => None
           | None => ok (get_parsed (de_int (- 2 ^ 31) (2 ^ 31 - 1)) vs (chars "ZBLANK"))
           end) QNo)
  | _, _ => Panic
  end.

(** Lines 251-294; the integer types' [_blank] is never read and left out. *)
Inductive keywords := KU8 | KI16 | KI32 | KFloat (k : fkeys).

(** ** [pixels.rs] *)

(** Lines 41-58 and, of [mod.rs], 16-39. *)
Record tiles := mk_tiles {
  tl_rows : row_it; tl_buf : list Z; tl_n : Z; tl_rem : Z; tl_keys : keywords;
  tl_tile : list Z; tl_cmp : zcmp; tl_idx : Z }.

Definition tl_set_rows (s : tiles) (r : row_it) : tiles :=
  mk_tiles r (tl_buf s) (tl_n s) (tl_rem s) (tl_keys s) (tl_tile s) (tl_cmp s) (tl_idx s).
Definition tl_set_buf (s : tiles) (b : list Z) : tiles :=
  mk_tiles (tl_rows s) b (tl_n s) (tl_rem s) (tl_keys s) (tl_tile s) (tl_cmp s) (tl_idx s).
Definition tl_set_count (s : tiles) (n rem : Z) : tiles :=
  mk_tiles (tl_rows s) (tl_buf s) n rem (tl_keys s) (tl_tile s) (tl_cmp s) (tl_idx s).
Definition tl_set_keys (s : tiles) (k : keywords) : tiles :=
  mk_tiles (tl_rows s) (tl_buf s) (tl_n s) (tl_rem s) k (tl_tile s) (tl_cmp s) (tl_idx s).
Definition tl_reader (s : tiles) : reader := tb_reader (ri_data (tl_rows s)).
Definition tl_set_reader (s : tiles) (r : reader) : tiles :=
  tl_set_rows s (mk_row_it (set_reader (ri_data (tl_rows s)) r) (ri_row (tl_rows s))).

(** [z_tile.iter().product::<usize>()], lines 88 and 194. *)
Fixpoint usize_product (m : mode) (acc : Z) (l : list Z) : res Z :=
  match l with [] => Ok acc | x :: r => let! a := u64_result m (acc * x) in usize_product m a r end.

(** Lines 73-114 ([It::new]) and 24-39 ([Pixels::new]).  A buffer of 2^63 bytes or more panics; that
    smaller ones can be allocated is assumed. *)
Definition pixels_new (m : mode) (vs : vmap) (t : bintable) (data : table) (z : zimage) : res tiles :=
  let! n := usize_product m 1 (z_tilen z) in
  let! bytes := u64_result m (n * 4) in
  if 2 ^ 63 <=? bytes then Panic else
  let! k := match z_bitpix z with
            | BU8 => Ok KU8 | BI16 => Ok KI16 | BI32 => Ok KI32
            | BF32 | BF64 => let! k := fkeys_new vs t z in Ok (KFloat k)
            | BI64 => Panic
            end in
  Ok (mk_tiles (row_iter (read_the_heap data false)) (repeat 0 (Z.to_nat bytes)) 0 0 k
               (z_tilen z) (z_cmp z) (z_data_idx z)).

(** The gzip decoder of the flate2 crate, which is not modelled: from the bytes that follow in the
    reader and the length of the buffer it gives [Some] bytes, which fill the buffer, or [None].
    The bytes it then has written and the number of bytes it has taken are given next. *)
Definition gunzip := list Z -> Z -> option (list Z) * list Z * Z.

(** Lines 178-188: the offset of the tile in the heap. *)
Definition tile_offset (row : list dvalue) (i : Z) : res Z :=
  let! v := index row i in
  match v with DVla32 _ o | DVla64 _ o => Ok o | DVal _ _ _ _ => Panic end.

(** Lines 552-562: ZSCALE and ZZERO of a row. *)
Definition row_float (row : list dvalue) (i : Z) : res spec_float :=
  let! v := index row i in
  match v with
  | DVal TyE (b :: _) _ _ => Ok (f32_of_bits b)
  | DVal TyD (b :: _) _ _ => Ok (f32_of_f64 (f64_of_bits b))
  | _ => Panic
  end.
(** Lines 564-572: ZBLANK of a row. *)
Definition row_blank (row : list dvalue) (i : Z) : res Z :=
  let! v := index row i in
  match v with
  | DVal TyB (b :: _) _ _ | DVal TyI (b :: _) _ _ | DVal TyJ (b :: _) _ _ => Ok b
  | DVal TyK (b :: _) _ _ => Ok (as_i32 b)
  | _ => Panic
  end.
(** Lines 538-550: the place in the table of random numbers for row [row_idx] (counted from 1). *)
Definition dither_start (m : mode) (row_idx z0 : Z) : res Z :=
  let! a := u64_result m (row_idx - 1 + as_usize z0) in
  let! r := index RAND_VALUES (a mod 10000) in
  Ok (f_floor_usize (f32_mul r (f32_of_int 500))).

(** Lines 522-572 and 700-750: the float keywords for a row. *)
Definition fkeys_row (m : mode) (k : fkeys) (row : list dvalue) (row_idx : Z) : res fkeys :=
  let! q := match k_quant k with
            | ZNoDither => Ok QNo
            | ZSubtractive1 => let! i := dither_start m row_idx (k_dither0 k) in Ok (QSub1 i)
            | ZSubtractive2 => let! i := dither_start m row_idx (k_dither0 k) in Ok (QSub2 i)
            end in
  let! sc := row_float row (k_scale_idx k) in
  let! ze := row_float row (k_zero_idx k) in
  let! bl := match k_blank_idx k with
             | Some i => let! b := row_blank row i in Ok (Some b)
             | None => Ok (k_blank k)
             end in
  Ok (mk_fkeys (k_scale_idx k) (k_zero_idx k) (k_blank_idx k) (k_dither0 k) (k_quant k) sc ze bl q).
Definition keys_row (m : mode) (k : keywords) (row : list dvalue) (row_idx : Z) : res keywords :=
  match k with KFloat f => let! f' := fkeys_row m f row row_idx in Ok (KFloat f') | _ => Ok k end.

(** Lines 201-208: the distance to the tile. *)
Definition tile_jump (m : mode) (t : bintable) (row_idx o : Z) : res Z :=
  let! main := u64_result m (row_idx * bt_naxis1 t) in
  let! back := i64_result m (- as_i64 main) in
  let! h := i64_result m (back + as_i64 (bt_theap t)) in
  i64_result m (h + as_i64 o).

(** The bytes [w] written over the beginning of [buf]. *)
Definition overwrite (buf w : list Z) : list Z := w ++ skipn (length w) buf.

(** Lines 211-235: decompression of [n] pixels into the buffer, from the reader's place on; [None]: the
    fuel is used up. *)
Definition decompress (gz : gunzip) (m : mode) (fuel : nat) (cmp : zcmp) (n : Z) (buf : list Z) (r : reader)
  : option (res unit) * list Z * reader :=
  match cmp with
  | ZGzip1 | ZGzip2 =>
    if len buf =? 0 then (Some (Ok tt), buf, r)
    else
      let '(o, w, used) := gz (rd_rest r) (len buf) in
      match o with
      | Some b => (Some (Ok tt), b, mk_reader (rd_data r) (rd_pos r + used))
      | None => (Some (Err EIoOther), overwrite buf w, mk_reader (rd_data r) (rd_pos r + used))
      end
  | ZRice bs _ =>
    let '(o, src, out) := rice_read_exact m RI32 bs (as_i32 n) (len buf) fuel (rd_rest r) in
    (o, overwrite buf out, mk_reader (rd_data r) (rd_pos r + (len (rd_rest r) - len src)))
  | _ => (Some Panic, buf, r)
  end.

(** Lines 852-863: [jump_to_location] around the decompression. *)
Definition load_tile (gz : gunzip) (m : mode) (fuel : nat) (s : tiles) (off : Z) : option (res unit) * tiles :=
  let old := rd_pos (tl_reader s) in
  match seek_relative (tl_reader s) off with
  | (Ok _, r) =>
    match decompress gz m fuel (tl_cmp s) (tl_n s) (tl_buf s) r with
    | (Some (Ok _), b, r') => (Some (Ok tt), tl_set_reader (tl_set_buf s b) (seek_start r' old))
    | (o, b, r') => (o, tl_set_reader (tl_set_buf s b) r')
    end
  | (x, r) => (Some x, tl_set_reader s r)
  end.

(** Lines 175-240 and their like: the next row and its tile.  [Ok false]: there is none, or it cannot be had. *)
Definition next_tile (gz : gunzip) (m : mode) (fuel : nat) (s : tiles) : option (res bool) * tiles :=
  match row_next m fuel (tl_rows s) with
  | (Some (Ok (Some row)), x) =>
    let s1 := tl_set_rows s x in
    match (let! o := tile_offset row (tl_idx s) in
           let! n := usize_product m 1 (tl_tile s) in
           let! k := keys_row m (tl_keys s) row (ri_row x) in
           let! off := tile_jump m (tb_ctx (ri_data x)) (ri_row x) o in Ok (n, k, off)) with
    | Ok (n, k, off) =>
      match load_tile gz m fuel (tl_set_keys (tl_set_count s1 n n) k) off with
      | (Some (Ok _), s2) => (Some (Ok true), s2)
      | (Some (Err _), s2) => (Some (Ok false), s2)
      | (Some Panic, s2) => (Some Panic, s2)
      | (None, s2) => (None, s2)
      end
    | _ => (Some Panic, s1)
    end
  | (Some (Ok None), x) => (Some (Ok false), tl_set_rows s x)
  | (Some (Err _), x) => (Some Panic, tl_set_rows s x) (* not reached *)
  | (Some Panic, x) => (Some Panic, tl_set_rows s x)
  | (None, x) => (None, tl_set_rows s x)
  end.

(** The four bytes of a pixel in the buffer, most significant first; one after the other (lines
    451-460 and so on), plane by plane (461-470), or least significant first (471-480: [from_ne_bytes]
    on a little-endian machine). *)
Definition pixel_bytes_at (cmp : zcmp) (buf : list Z) (i : Z) : res (list Z) :=
  let l := match cmp with
           | ZGzip2 => let step := len buf / 4 in [i; i + step; i + 2 * step; i + 3 * step]
           | ZRice _ _ => [4 * i + 3; 4 * i + 2; 4 * i + 1; 4 * i]
           | _ => [4 * i; 4 * i + 1; 4 * i + 2; 4 * i + 3]
           end in
  fold_right (fun p acc => let! b := index buf p in let! r := acc in Ok (b :: r)) (Ok []) l.

(** The integer of pixel [i], lines 245-259 (u8), 344-365 (i16), 450-483 (i32), 621-661 and 799-839.  The first does not
    tell the two orders of gzip apart. *)
Definition int_value (k : keywords) (cmp : zcmp) (buf : list Z) (i : Z) : res Z :=
  match k with
  | KU8 => index buf (match cmp with ZRice _ _ => 4 * i | _ => 4 * i + 3 end)
  | KI16 =>
    let step := len buf / 4 in
    let '(hi, lo) := match cmp with
                     | ZGzip2 => (2 * step + i, 3 * step + i)
                     | ZRice _ _ => (4 * i + 1, 4 * i)
                     | _ => (4 * i + 2, 4 * i + 3)
                     end in
    let! l := index buf lo in
    let! h := index buf hi in
    Ok (to_signed 2 (Z.lor l (Z.shiftl h 8)))
  | _ => let! bs := pixel_bytes_at cmp buf i in Ok (to_signed 4 (be_unsigned bs))
  end.

(** A pixel given to the user. *)
Inductive pixel := PInt (v : Z) | PFloat (x : spec_float).

(** Lines 242-262 and their like: the next pixel of the tile at hand. *)
Definition tile_pixel (m : mode) (s : tiles) : res (option pixel) * tiles :=
  match (let! i := u64_result m (tl_n s - tl_rem s) in
         let! v := int_value (tl_keys s) (tl_cmp s) (tl_buf s) i in
         match tl_keys s with
         | KFloat k => let! (x, k') := unquantize k v in Ok (PFloat x, KFloat k')
         | k => Ok (PInt v, k)
         end) with
  | Ok (p, k) =>
    let s1 := tl_set_keys s k in
    match u64_result m (tl_rem s - 1) with
    | Ok r => (Ok (Some p), tl_set_count s1 (tl_n s) r)
    | _ => (Panic, s1)
    end
  | _ => (Panic, s)
  end.

(** [Iterator::next], lines 173-263, 273-369, 379-487, 497-665 and 675-843. *)
Definition tiles_next (gz : gunzip) (m : mode) (fuel : nat) (s : tiles) : option (res (option pixel)) * tiles :=
  if tl_rem s =? 0 then
    match next_tile gz m fuel s with
    | (Some (Ok true), s1) => let (x, s2) := tile_pixel m s1 in (Some x, s2)
    | (Some (Ok false), s1) => (Some (Ok None), s1)
    | (Some _, s1) => (Some Panic, s1)
    | (None, s1) => (None, s1)
    end
  else let (x, s1) := tile_pixel m s in (Some x, s1).

(** [src/hdu/data/bintable/data.rs] lines 57-66: [get_data] for a tile-compressed table; [None]: the table
    is not one. *)
Definition get_tiles (m : mode) (f : fits) (vs : vmap) (t : bintable) : option (res tiles) :=
  match bt_zimage t with
  | Some z => Some (let! data := get_table m f t in pixels_new m vs t data z)
  | None => None
  end.
