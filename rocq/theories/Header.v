(** Model of the keyword map and of header assembly ([src/hdu/header/mod.rs]) and of the
    record loop of [src/hdu/mod.rs]. *)

From Verif Require Import Base Utf8 Text Card Reader.

(** [src/hdu/header/mod.rs] lines 82-86: the [IndexMap<String, Value>] of a header, as an
    association list in insertion order. *)
Definition vmap := list (str * value).

(** [src/hdu/header/mod.rs] lines 91-93: [ValueMap::get]. *)
Fixpoint get (vs : vmap) (k : str) : option value :=
  match vs with
  | [] => None
  | (n, v) :: r => if str_eqb n k then Some v else get r k
  end.

(** [IndexMap::insert]: replaces in place, or appends. *)
Fixpoint insert (vs : vmap) (k : str) (v : value) : vmap :=
  match vs with
  | [] => [(k, v)]
  | (n, w) :: r => if str_eqb n k then (n, v) :: r else (n, w) :: insert r k v
  end.

(** [src/hdu/header/mod.rs] lines 128-130: [ValueMap::keywords]. *)
Definition keywords (vs : vmap) : list str := map fst vs.

(** Body of the loop of [process_cards], [src/hdu/header/mod.rs] lines 254-313, on one card that
    is not END: the map and the keyword of the value waiting for its continuation. *)
Definition process_card (m : mode) (vs : vmap) (kw : option str) (c : card)
  : res (vmap * option str) :=
  match c with
  | CValue n v | CHierarch n v =>
    Ok (insert vs n v, if value_continued v then Some n else None)
  | CContinuation s cm =>
    match kw with
    | Some n =>
      match get vs n with
      | Some v => let! v' := value_append m v s cm in
                  Ok (insert vs n v', if value_continued v' then Some n else None)
      | None => Panic
      end
    | None => Ok (vs, None)
    end
  | CXtension x _ => Ok (insert vs (chars "XTENSION") (VString (xtype_str x) None), None)
  | _ => Ok (vs, kw)
  end.

(** [src/hdu/header/mod.rs] lines 250-316: [process_cards]. *)
Fixpoint process_cards_from (m : mode) (vs : vmap) (kw : option str) (cards : list card)
  : res vmap :=
  match cards with
  | [] => Err EStatic
  | CEnd :: r => match r with [] => Ok vs | _ => Panic end
  | c :: r => let! (vs', kw') := process_card m vs kw c in process_cards_from m vs' kw' r
  end.
Definition process_cards (m : mode) (cards : list card) : res vmap :=
  process_cards_from m [] None cards.

(** [src/hdu/header/mod.rs] lines 232-241: [Header::history]. *)
Definition history (cards : list card) : list str :=
  flat_map (fun c => match c with CHistory s => [s] | _ => [] end) cards.

(** ** Typed access: [get_parsed], [src/hdu/header/mod.rs] lines 101-107, through the
    [Deserializer] of [src/card.rs] lines 470-507.  One function per requested type, after the
    serde visitor of that type. *)

(** Missing keywords are read as [Value::Undefined]. *)
Definition value_or_undefined (o : option value) : value :=
  match o with Some v => v | None => VUndefined end.

(** Integer types with range [lo..hi]: only [visit_i64] and a range check. *)
Definition de_int (lo hi : Z) (v : value) : res Z :=
  match v with
  | VInteger i _ => if (lo <=? i) && (i <=? hi) then Ok i else Err EDynamic
  | _ => Err EDynamic
  end.
Definition de_i8 := de_int (-128) 127.
Definition de_u8 := de_int 0 255.
Definition de_i64 := de_int (- 2 ^ 63) (2 ^ 63 - 1).
Definition de_u64 := de_int 0 (2 ^ 64 - 1).

(** [f64]: [visit_f64], and [visit_i64] with a cast (the rounding of the cast is not modelled). *)
Definition de_f64 (v : value) : res fval :=
  match v with
  | VFloat f _ => Ok f
  | VInteger i _ => Ok (FDec (i <? 0) (Z.abs i) 0)
  | _ => Err EDynamic
  end.

(** [bool]: [visit_bool]. *)
Definition de_bool (v : value) : res bool :=
  match v with VLogical b _ => Ok b | _ => Err EDynamic end.

(** [String]: [visit_str], which invalid values also use. *)
Definition de_string (v : value) : res str :=
  match v with VString s _ => Ok s | VInvalid s => Ok s | _ => Err EDynamic end.

(** [Option<T>], [src/card.rs] lines 488-498. *)
Definition de_option {A} (de : value -> res A) (v : value) : res (option A) :=
  match v with VUndefined => Ok None | _ => let! a := de v in Ok (Some a) end.

Definition get_parsed {A} (de : value -> res A) (vs : vmap) (k : str) : res A :=
  de (value_or_undefined (get vs k)).

(** [Result::ok]. *)
Definition ok {A} (x : res A) : option A := match x with Ok a => Some a | _ => None end.

(** [src/hdu/header/mod.rs] lines 65-80: [Bitpix], deserialised through [i8]. *)
Inductive bitpix := BU8 | BI16 | BI32 | BI64 | BF32 | BF64.
Definition bitpix_code (b : bitpix) : Z :=
  match b with BU8 => 8 | BI16 => 16 | BI32 => 32 | BI64 => 64 | BF32 => -32 | BF64 => -64 end.
Definition byte_size (b : bitpix) : Z := Z.abs (bitpix_code b) / 8.
Definition bitpix_eqb (a b : bitpix) : bool := bitpix_code a =? bitpix_code b.

Definition de_bitpix (v : value) : res bitpix :=
  let! i := de_i8 v in
  if i =? 8 then Ok BU8 else if i =? 16 then Ok BI16 else if i =? 32 then Ok BI32
  else if i =? 64 then Ok BI64 else if i =? -32 then Ok BF32 else if i =? -64 then Ok BF64
  else Err EDynamic.

(** [format!("NAME{i}")]. *)
Definition indexed (name : str) (i : Z) : str := name ++ dec i.

(** [src/hdu/header/mod.rs] lines 134-158. *)
Definition check_for_bitpix (vs : vmap) := get_parsed de_bitpix vs (chars "BITPIX").
Definition check_for_naxis (vs : vmap) := get_parsed de_u64 vs (chars "NAXIS").
Definition check_for_naxisi (vs : vmap) (i : Z) := get_parsed de_u64 vs (indexed (chars "NAXIS") i).
Definition check_for_gcount (vs : vmap) := get_parsed de_u64 vs (chars "GCOUNT").
Definition check_for_pcount (vs : vmap) := get_parsed de_u64 vs (chars "PCOUNT").
Definition check_for_tfields (vs : vmap) := get_parsed de_u64 vs (chars "TFIELDS").

(** [src/hdu/header/mod.rs] lines 49-63: [check_card_keyword] (public, not used by the crate). *)
Definition check_card_keyword (card keyword : list Z) : res value :=
  if str_eqb (firstn 8 card) keyword then
    match parse_card card with
    | Ok (CValue _ v) => Ok v
    | Ok _ => match from_utf8 keyword with Some k => Err (EFailKeyword k) | None => Err EUtf8 end
    | Err e => Err e
    | Panic => Panic
    end
  else match from_utf8 keyword with Some k => Err (EFailKeyword k) | None => Err EUtf8 end.

(** ** Reading the records of a header *)

(** [src/hdu/mod.rs] lines 48-77 with [consume_next_card] ([src/hdu/header/mod.rs] lines 25-34):
    [consume_cards], on the accumulator [acc] (reversed).  The result carries the updated
    byte count and reader, which the caller sees also on error.  The loop runs at most once per
    80 bytes: [fuel] is one more than the number of bytes and its exhaustion, a [Panic], is
    unreachable ([consume_cards_spec]). *)
Fixpoint consume_loop (fuel : nat) (r : reader) (nread : Z) (acc : list card)
  : res (list card) * Z * reader :=
  match fuel with
  | O => (Panic, nread, r)
  | S f =>
    match read_exact r 80 with
    | (Ok buf, r') =>
      match parse_card buf with
      | Ok CEnd => (Ok (rev (CEnd :: acc)), nread + 80, r')
      | Ok c => consume_loop f r' (nread + 80) (c :: acc)
      | Err _ => consume_loop f r' (nread + 80) (CUndefined (utf8_lossy buf) :: acc)
      | Panic => (Panic, nread + 80, r')
      end
    | (Err e, r') => (Err e, nread, r')
    | (Panic, r') => (Panic, nread, r')
    end
  end.
Definition consume_cards (r : reader) (nread : Z) : res (list card) * Z * reader :=
  consume_loop (S (length (rd_data r))) r nread [].
