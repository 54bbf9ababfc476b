(** Models of the three extension descriptions: [src/hdu/header/extension/image.rs],
    [asciitable.rs] and [bintable.rs]. *)

From Verif Require Import Base Utf8 Text Card Reader Header.

(** ** Images *)

(** [extension/image.rs] lines 10-16. *)
Record image := mk_image { im_bitpix : bitpix; im_naxisn : list Z }.

(** [(1..=naxis).map(check_for_naxisi).collect::<Result<_, _>>()], lines 49-52: [n] axes from
    index [i] on; the first failing axis ends the collection. *)
Fixpoint naxis_list (vs : vmap) (n : nat) (i : Z) : res (list Z) :=
  match n with
  | O => Ok []
  | S n' => let! a := check_for_naxisi vs i in
            let! r := naxis_list vs n' (i + 1) in Ok (a :: r)
  end.

(** [extension/image.rs] lines 43-55: [Image::parse]. *)
Definition image_parse (vs : vmap) : res image :=
  let! b := check_for_bitpix vs in
  let! n := check_for_naxis vs in
  let! axes := naxis_list vs (Z.to_nat n) 1 in
  Ok (mk_image b axes).

(** [Iterator::product] on u64. *)
Fixpoint u64_product_from (m : mode) (acc : Z) (l : list Z) : res Z :=
  match l with
  | [] => Ok acc
  | x :: r => let! a := u64_result m (acc * x) in u64_product_from m a r
  end.

(** [extension/image.rs] lines 30-35: [get_num_pixels]. *)
Definition num_pixels (m : mode) (im : image) : res Z :=
  match im_naxisn im with [] => Ok 0 | l => u64_product_from m 1 l end.

(** [extension/image.rs] lines 39-41. *)
Definition image_num_bytes (m : mode) (im : image) : res Z :=
  let! p := num_pixels m im in u64_result m (byte_size (im_bitpix im) * p).

(** [Vec::with_capacity(n)] of elements of [size] bytes panics when the byte size exceeds
    [isize::MAX].  Allocation failure below that bound is not modelled. *)
Definition with_capacity (n size : Z) : res unit := if n * size <=? 2 ^ 63 - 1 then Ok tt else Panic.

(** ** ASCII tables *)

(** [extension/asciitable.rs] lines 178-185. *)
Inductive atform :=
| ACharacter (w : Z) | ADecimalInteger (w : Z)
| AFixed (w d : Z) | AExpE (w d : Z) | AExpD (w d : Z).

(** [str::split_once('.')]. *)
Fixpoint split_dot (s : str) : option (str * str) :=
  match s with
  | [] => None
  | c :: r => if c =? 46 then Some ([], r)
              else match split_dot r with Some (a, b) => Some (c :: a, b) | None => None end
  end.

Definition parse_usize (s : str) : res Z :=
  match parse_unsigned (2 ^ 64 - 1) s with Some n => Ok n | None => Err EDynamic end.

(** Lines 217-224: the [parse_split] closure. *)
Definition parse_width_dec (rest : str) : res (Z * Z) :=
  match split_dot rest with
  | Some (w, d) => let! w' := parse_usize w in let! d' := parse_usize d in Ok (w', d')
  | None => Err EDynamic
  end.

(** [extension/asciitable.rs] lines 201-258: the visitor of [TFormAsciiTable]. *)
Definition parse_atform (v : str) : res atform :=
  match trim_end v with
  | [] => Err EDynamic
  | c :: rest =>
    if c =? 65 then let! w := parse_usize rest in Ok (ACharacter w)
    else if c =? 73 then let! w := parse_usize rest in Ok (ADecimalInteger w)
    else if c =? 70 then let! (w, d) := parse_width_dec rest in Ok (AFixed w d)
    else if c =? 69 then let! (w, d) := parse_width_dec rest in Ok (AExpE w d)
    else if c =? 68 then let! (w, d) := parse_width_dec rest in Ok (AExpD w d)
    else Err EDynamic
  end.
Definition de_atform (v : value) : res atform := let! s := de_string v in parse_atform s.

(** [extension/asciitable.rs] lines 14-38. *)
Record asciitable := mk_asciitable {
  at_naxis1 : Z; at_naxis2 : Z; at_tfields : Z;
  at_tbcols : list Z; at_tforms : list atform; at_pcount : Z; at_gcount : Z }.

(** Lines 136-154: the loop over the fields; fields without TBCOL or TFORM are discarded. *)
Fixpoint atfields (vs : vmap) (n : nat) (i : Z) : list (Z * atform) :=
  match n with
  | O => []
  | S n' =>
    match get_parsed de_u64 vs (indexed (chars "TBCOL") i) with
    | Ok b => match get_parsed de_atform vs (indexed (chars "TFORM") i) with
              | Ok f => (b, f) :: atfields vs n' (i + 1)
              | _ => atfields vs n' (i + 1)
              end
    | _ => atfields vs n' (i + 1)
    end
  end.

(** [extension/asciitable.rs] lines 101-167: [AsciiTable::parse].  [bitpix] is always 8 and is
    not stored.  Elements of [tbcols] take 8 bytes, those of [tforms] 24. *)
Definition asciitable_parse (vs : vmap) : res asciitable :=
  let! b := check_for_bitpix vs in
  if negb (bitpix_eqb b BU8) then Err EStatic else
  let! naxis := check_for_naxis vs in
  if negb (naxis =? 2) then Err EStatic else
  let! n1 := check_for_naxisi vs 1 in
  let! n2 := check_for_naxisi vs 2 in
  let! pc := check_for_pcount vs in
  if negb (pc =? 0) then Err EStatic else
  let! gc := check_for_gcount vs in
  if negb (gc =? 1) then Err EStatic else
  let! tf := check_for_tfields vs in
  let! _ := with_capacity tf 8 in
  let! _ := with_capacity tf 24 in
  let fields := atfields vs (Z.to_nat tf) 1 in
  Ok (mk_asciitable n1 n2 tf (map fst fields) (map snd fields) pc gc).

(** [extension/asciitable.rs] lines 97-99. *)
Definition asciitable_num_bytes (m : mode) (t : asciitable) : res Z :=
  u64_result m (at_naxis1 t * at_naxis2 t).

(** ** Binary tables *)

(** [extension/bintable.rs] lines 720-745: element types. *)
Inductive ety := TyL | TyX | TyB | TyI | TyJ | TyK | TyA | TyE | TyD | TyC | TyM.

(** [BITS_SIZE] and [BYTES_SIZE], lines 540-634. *)
Definition bits_size (t : ety) : Z :=
  match t with
  | TyL => 8 | TyX => 1 | TyB => 8 | TyI => 16 | TyJ => 32 | TyK => 64 | TyA => 8
  | TyE => 32 | TyD => 64 | TyC => 64 | TyM => 128
  end.
Definition div_ceil (a b : Z) : Z := (a + b - 1) / b.
Definition bytes_size (t : ety) : Z := div_ceil (bits_size t) 8.

(** [TFormType], lines 655-719: a repeated element type, or a 32- or 64-bit array descriptor
    (the fields [t_byte_size] and [e_max] are functions of the type and not stored). *)
Inductive tform := TElem (t : ety) (repeat : Z) | TDesc32 (t : ety) | TDesc64 (t : ety).

(** [num_bits_field], lines 768-786. *)
Definition num_bits_field (m : mode) (f : tform) : res Z :=
  match f with
  | TElem t n => u64_result m (n * bits_size t)
  | TDesc32 _ => Ok 64
  | TDesc64 _ => Ok 128
  end.
(** [num_bytes_field], lines 788-790. *)
Definition num_bytes_field (m : mode) (f : tform) : res Z :=
  let! b := num_bits_field m f in Ok (div_ceil b 8).

Definition ety_of_char (c : Z) : option ety :=
  if c =? 76 then Some TyL else if c =? 88 then Some TyX else if c =? 66 then Some TyB
  else if c =? 73 then Some TyI else if c =? 74 then Some TyJ else if c =? 75 then Some TyK
  else if c =? 65 then Some TyA else if c =? 69 then Some TyE else if c =? 68 then Some TyD
  else if c =? 67 then Some TyC else if c =? 77 then Some TyM else None.

(** Lines 361-460: one TFORM value. [None]: the field is discarded. *)
Definition parse_tform (s : str) : option tform :=
  let (count, rest) := span_digits s in
  let repeat := match parse_unsigned (2 ^ 64 - 1) count with Some n => n | None => 1 end in
  match rest with
  | [] => None
  | c :: rest' =>
    let elem := match rest' with [] => None | e :: _ => ety_of_char e end in
    if c =? 80 then option_map TDesc32 elem
    else if c =? 81 then option_map TDesc64 elem
    else option_map (fun t => TElem t repeat) (ety_of_char c)
  end.

(** Lines 339-465: [filter_map] over the fields, with the optional TTYPE names. *)
Fixpoint btfields (vs : vmap) (n : nat) (i : Z) : list (tform * option str) :=
  match n with
  | O => []
  | S n' =>
    match get_parsed de_string vs (indexed (chars "TFORM") i) with
    | Ok s => match parse_tform s with
              | Some f => (f, ok (get_parsed de_string vs (indexed (chars "TTYPE") i)))
                          :: btfields vs n' (i + 1)
              | None => btfields vs n' (i + 1)
              end
    | _ => btfields vs n' (i + 1)
    end
  end.

(** Lines 67-75: [find_field_by_ttype]. *)
Fixpoint find_ttype_from (l : list (option str)) (name : str) (i : Z) : option Z :=
  match l with
  | [] => None
  | o :: r => match o with
              | Some n => if str_eqb n name then Some i else find_ttype_from r name (i + 1)
              | None => find_ttype_from r name (i + 1)
              end
  end.
Definition find_field_by_ttype (l : list (option str)) (name : str) : option Z :=
  find_ttype_from l name 0.

(** Lines 150-168: compression types. *)
Inductive zcmp := ZGzip1 | ZGzip2 | ZRice (blocksize bytepix : Z) | ZPlio1 | ZHcompress1.

(** Lines 140-148: quantization methods. *)
Inductive zquantiz := ZNoDither | ZSubtractive1 | ZSubtractive2.

(** The derived [Deserialize] of [ZQuantiz] asks for [deserialize_enum], which [src/card.rs]
    lines 500-504 forwards to [deserialize_any]; the visitor then gets a string, an integer, ...
    and accepts none of them: every value is an error. *)
Definition de_zquantiz (v : value) : res zquantiz := Err EDynamic.

(** Lines 97-138. *)
Record zimage := mk_zimage {
  z_cmp : zcmp; z_bitpix : bitpix; z_naxisn : list Z; z_tilen : list Z;
  z_quant : option zquantiz; z_dither0 : option Z; z_data_idx : Z }.

(** [str::starts_with(prefix)]. *)
Fixpoint has_prefix (p s : str) : bool :=
  match p, s with
  | [], _ => true
  | a :: p', b :: s' => (a =? b) && has_prefix p' s'
  | _ :: _, [] => false
  end.

(** [str::replace("NAME", "VAL")]. *)
Fixpoint replace_name (s : str) : str :=
  match s with
  | [] => []
  | a :: r =>
    match r with
    | b :: c :: d :: t =>
      if (a =? 78) && (b =? 65) && (c =? 77) && (d =? 69)
      then chars "VAL" ++ replace_name t else a :: replace_name r
    | _ => s
    end
  end.

(** Lines 232-249: the block size of the RICE parameters. *)
Fixpoint find_blocksize (all vs : vmap) : option Z :=
  match vs with
  | [] => None
  | (name, v) :: r =>
    match v with
    | VString s _ =>
      if str_eqb s (chars "BLOCKSIZE") && has_prefix (chars "ZNAME") name
      then match get_parsed de_u8 all (replace_name name) with
           | Ok n => Some n
           | _ => find_blocksize all r
           end
      else find_blocksize all r
    | _ => find_blocksize all r
    end
  end.

(** Lines 220-267: ZCMPTYPE. *)
Definition parse_zcmp (vs : vmap) : option zcmp :=
  match get vs (chars "ZCMPTYPE") with
  | Some (VString s _) =>
    let t := trim_ascii_end s in
    if str_eqb t (chars "GZIP_1") then Some ZGzip1
    else if str_eqb t (chars "GZIP_2") then Some ZGzip2
    else if str_eqb t (chars "RICE_1") || str_eqb t (chars "RICE_ONE")
    then Some (ZRice (match find_blocksize vs vs with Some n => n | None => 32 end) 4)
    else if str_eqb t (chars "PLI0_1") then Some ZPlio1
    else if str_eqb t (chars "HCOMPRESS_1") then Some ZHcompress1
    else None
  | _ => None
  end.

(** Lines 294-317: the loop over ZNAXISn and ZTILEn; it stops at the first missing ZNAXISn. *)
Fixpoint znaxis_loop (vs : vmap) (n : nat) (i : Z) : list (Z * Z) :=
  match n with
  | O => []
  | S n' =>
    match get_parsed de_u64 vs (indexed (chars "ZNAXIS") i) with
    | Ok a =>
      let t := match get_parsed de_u64 vs (indexed (chars "ZTILE") i) with
               | Ok t => t
               | _ => if i =? 1 then a else 1
               end in
      (a, t) :: znaxis_loop vs n' (i + 1)
    | _ => []
    end
  end.

(** Lines 276-329: ZNAXIS, ZNAXISn, ZTILEn. *)
Definition parse_znaxis (vs : vmap) : res (option (list Z * list Z)) :=
  match get_parsed de_u64 vs (chars "ZNAXIS") with
  | Ok n =>
    let! _ := with_capacity n 8 in
    let l := znaxis_loop vs (Z.to_nat n) 1 in
    if len l =? n then Ok (Some (map fst l, map snd l)) else Ok None
  | _ => Ok None
  end.

(** [unwrap_or_else(|_| None)] on an optional keyword. *)
Definition or_none {A} (x : res (option A)) : option A := match x with Ok o => o | _ => None end.

(** [extension/bintable.rs] lines 15-65. *)
Record bintable := mk_bintable {
  bt_naxis1 : Z; bt_naxis2 : Z; bt_tfields : Z; bt_theap : Z;
  bt_tforms : list tform; bt_ttypes : list (option str);
  bt_pcount : Z; bt_gcount : Z; bt_zimage : option zimage }.

(** [sum::<u64>()] of the field sizes in bits, lines 508-511. *)
Fixpoint sum_bits (m : mode) (acc : Z) (l : list tform) : res Z :=
  match l with
  | [] => Ok acc
  | f :: r => let! b := num_bits_field m f in
              let! a := u64_result m (acc + b) in sum_bits m a r
  end.

(** Lines 467-500: the description of a tile-compressed image, if complete and supported. *)
Definition make_zimage (zc : option zcmp) (zb : option bitpix) (zn : option (list Z * list Z))
           (zq : option zquantiz) (zd : option Z) (idx : option Z) : option zimage :=
  match zc, zb, zn, idx with
  | Some c, Some b, Some (na, ti), Some i =>
    match c, b with
    | ZHcompress1, _ => None
    | ZPlio1, _ => None
    | _, BI64 => None
    | _, _ => Some (mk_zimage c b na ti zq zd i)
    end
  | _, _, _, _ => None
  end.

(** [extension/bintable.rs] lines 189-533: [BinTable::parse].  [bitpix] is always 8 and is not
    stored. *)
Definition bintable_parse (m : mode) (vs : vmap) : res bintable :=
  let! b := check_for_bitpix vs in
  if negb (bitpix_eqb b BU8) then Err EStatic else
  let! naxis := check_for_naxis vs in
  if negb (naxis =? 2) then Err EStatic else
  let! n1 := check_for_naxisi vs 1 in
  let! n2 := check_for_naxisi vs 2 in
  let! pc := check_for_pcount vs in
  let! gc := check_for_gcount vs in
  if negb (gc =? 1) then Err EStatic else
  let! tf := check_for_tfields vs in
  let zc := parse_zcmp vs in
  let zb := or_none (get_parsed (de_option de_bitpix) vs (chars "ZBITPIX")) in
  let! zn := parse_znaxis vs in
  let zq := or_none (get_parsed (de_option de_zquantiz) vs (chars "ZQUANTIZ")) in
  let zd := ok (get_parsed de_i64 vs (chars "ZDITHER0")) in
  let fields := btfields vs (Z.to_nat tf) 1 in
  let tforms := map fst fields in
  let ttypes := map snd fields in
  let idx := match find_field_by_ttype ttypes (chars "COMPRESSED_DATA") with
             | Some i => Some i
             | None => find_field_by_ttype ttypes (chars "GZIP_COMPRESSED_DATA")
             end in
  let z := make_zimage zc zb zn zq zd idx in
  let! theap := match get_parsed de_u64 vs (chars "THEAP") with
                | Ok t => Ok t
                | _ => u64_result m (n1 * n2)
                end in
  let! bits := sum_bits m 0 tforms in
  if negb (bits / 8 =? n1) then Err EStatic else
  Ok (mk_bintable n1 n2 tf theap tforms ttypes pc gc z).

(** [extension/bintable.rs] lines 185-187. *)
Definition bintable_num_bytes (m : mode) (t : bintable) : res Z :=
  let! p := u64_result m (bt_naxis1 t * bt_naxis2 t) in u64_result m (p + bt_pcount t).

(** The three descriptions behind the trait [Xtension]. *)
Inductive xtension := XtImage (i : image) | XtAscii (t : asciitable) | XtBin (t : bintable).

Definition xt_num_bytes (m : mode) (x : xtension) : res Z :=
  match x with
  | XtImage i => image_num_bytes m i
  | XtAscii t => asciitable_num_bytes m t
  | XtBin t => bintable_num_bytes m t
  end.

(** [Xtension::parse] for the type requested by the caller. *)
Definition xt_parse (m : mode) (k : xtype) (vs : vmap) : res xtension :=
  match k with
  | XImage => let! i := image_parse vs in Ok (XtImage i)
  | XAsciiTable => let! t := asciitable_parse vs in Ok (XtAscii t)
  | XBinTable => let! t := bintable_parse m vs in Ok (XtBin t)
  end.
