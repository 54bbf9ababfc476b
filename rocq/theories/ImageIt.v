(** Models of the image and ASCII table readers: [src/hdu/data/iter.rs], [image.rs],
    [asciitable.rs], and [Fits::get_data] of [src/fits.rs]. *)

From Verif Require Import Base Reader Header Xtension Bytes Fits.

(** [src/hdu/data/iter.rs] lines 48-58: the iterator over the elements. *)
Record it := mk_it { it_ty : bitpix; it_reader : reader; it_num : Z; it_idx : Z }.

(** Lines 93-102: [It::new]. *)
Definition it_new (b : bitpix) (r : reader) (limit : Z) : it := mk_it b r (limit / byte_size b) 0.

(** Lines 10-42: [Value::read_be]. *)
Definition read_be (b : bitpix) (r : reader) : res Z * reader :=
  match read_exact r (byte_size b) with
  | (Ok bs, r') => (Ok (decode b bs), r')
  | (Err e, r') => (Err e, r')
  | (Panic, r') => (Panic, r')
  end.

(** Lines 112-121: [Iterator::next].  [cur_idx] never exceeds [num_items], so it cannot overflow. *)
Definition it_next (s : it) : option Z * it :=
  if it_idx s =? it_num s then (None, s)
  else
    let (v, r) := read_be (it_ty s) (it_reader s) in
    (match v with Ok x => Some x | _ => None end, mk_it (it_ty s) r (it_num s) (it_idx s + 1)).

(** Lines 135-151: [read_value]. *)
Definition read_value (m : mode) (s : it) (idx : Z) : res Z * it :=
  if it_num s <=? idx then (Err EStatic, s)
  else
    match (let! d := i64_result m (as_i64 idx - as_i64 (it_idx s)) in
           i64_result m (d * byte_size (it_ty s))) with
    | Ok off =>
      match seek_relative (it_reader s) off with
      | (Ok _, r) =>
        match it_next (mk_it (it_ty s) r (it_num s) idx) with
        | (Some v, s') => (Ok v, s')
        | (None, s') => (Err EStatic, s')
        end
      | (Err e, r) => (Err e, mk_it (it_ty s) r (it_num s) (it_idx s))
      | (Panic, r) => (Panic, mk_it (it_ty s) r (it_num s) (it_idx s))
      end
    | Err e => (Err e, s)
    | Panic => (Panic, s)
    end.

(** [src/hdu/data/image.rs] lines 29-33. *)
Record image_data := mk_image_data { id_start : Z; id_bytes : Z; id_pixels : it }.

(** Lines 56-73: [ImageData::new]. *)
Definition image_data_new (m : mode) (im : image) (r : reader) (start : Z) : res image_data :=
  let! limit := image_num_bytes m im in
  Ok (mk_image_data start limit (it_new (im_bitpix im) r limit)).

(** A slice expression [&l[s..e]]. *)
Definition slice_range (l : list Z) (s e : Z) : res (list Z) :=
  if (s <=? e) && (e <=? len l) then Ok (slice l s (e - s)) else Panic.

(** Lines 88-102: [ImageData::raw_bytes] of an in-memory reader. *)
Definition image_raw_bytes (m : mode) (d : image_data) : res (list Z) :=
  let! e := u64_result m (id_start d + id_bytes d) in
  slice_range (rd_data (it_reader (id_pixels d))) (id_start d) e.

(** ** ASCII tables: [BufReader<Take<&mut R>>] (library code) *)

(** [BufReader]: 8 KiB of capacity; [Take]: [limit] bytes may still be read from the source. *)
Record taker := mk_taker { tk_buf : list Z; tk_limit : Z; tk_reader : reader }.
Definition buf_capacity : Z := 8192.

(** [Cursor::read] into a buffer of [n] bytes. *)
Definition read_some (r : reader) (n : Z) : list Z * reader :=
  let bs := slice (rd_data r) (rd_pos r) n in
  (bs, mk_reader (rd_data r) (rd_pos r + len bs)).

(** [Take::read]. *)
Definition take_read (t : taker) (n : Z) : list Z * taker :=
  let (bs, r) := read_some (tk_reader t) (Z.min n (tk_limit t)) in
  (bs, mk_taker (tk_buf t) (tk_limit t - len bs) r).

(** [BufReader::read] into a buffer of [n] bytes: a large read with an empty buffer goes straight
    to the source. *)
Definition buf_read (t : taker) (n : Z) : list Z * taker :=
  match tk_buf t with
  | [] =>
    if buf_capacity <=? n then take_read t n
    else let (bs, t') := take_read t buf_capacity in
         (firstn (Z.to_nat n) bs, mk_taker (skipn (Z.to_nat n) bs) (tk_limit t') (tk_reader t'))
  | b => (firstn (Z.to_nat n) b, mk_taker (skipn (Z.to_nat n) b) (tk_limit t) (tk_reader t))
  end.

(** [src/hdu/data/asciitable.rs] lines 20-24: [read_data_unit]. *)
Definition ascii_data_new (m : mode) (t : asciitable) (r : reader) : res taker :=
  let! limit := asciitable_num_bytes m t in Ok (mk_taker [] limit r).

(** ** [Fits::get_data], [src/fits.rs] lines 96-105, for images and ASCII tables: the data object
    borrows the reader of the iterator, which finds it where the data object left it. *)
Definition get_image (m : mode) (f : fits) (im : image) : res image_data :=
  image_data_new m im (f_reader f) (f_pos_du f).
Definition get_ascii (m : mode) (f : fits) (t : asciitable) : res taker :=
  ascii_data_new m t (f_reader f).
Definition give_back (f : fits) (r : reader) : fits :=
  mk_fits (f_start f) (f_pos_du f) (f_num_du f) (f_error f) r.
