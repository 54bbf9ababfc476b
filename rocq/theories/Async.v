(** Model of the asynchronous reader: [src/async_fits.rs], [src/hdu/data/stream.rs], and the asynchronous parts
    of [src/hdu/mod.rs], [src/hdu/data/mod.rs] and [src/hdu/header/mod.rs]. *)

From Verif Require Import Base Utf8 Text Card Reader Header Xtension Fits Bytes.

(** ** The source of bytes *)

(** An [AsyncBufRead] of the futures crate, as the results of the polls of its source: not ready, or some
    bytes (none: the end); after the last event the source is at its end.  I/O errors other than the end are not modelled.
    [ar_buf] are the bytes in the buffer. *)
Inductive event := Wait | Chunk (c : list Z).
Record areader := mk_areader { ar_buf : list Z; ar_events : list event }.

Inductive poll (A : Type) := Pending | Ready (r : res A).
Arguments Pending {A}.
Arguments Ready {A} _.

(** The bytes still to come. *)
Definition chunk_of (e : event) : list Z := match e with Wait => [] | Chunk c => c end.
Definition content (s : areader) : list Z := ar_buf s ++ flat_map chunk_of (ar_events s).

(** [AsyncBufRead::poll_fill_buf]. *)
Definition poll_fill (s : areader) : poll (list Z) * areader :=
  match ar_buf s with
  | [] => match ar_events s with
          | [] => (Ready (Ok []), s)
          | Wait :: r => (Pending, mk_areader [] r)
          | Chunk c :: r => (Ready (Ok c), mk_areader c r)
          end
  | b => (Ready (Ok b), s)
  end.

(** One poll of a fresh [AsyncReadExt::read_exact] on a buffer of [n] bytes, from buffer [buf] and events [evs] on,
    the bytes [got] being already copied.  When the source is not ready the future is dropped by
    its callers here, with the bytes it has taken. *)
Fixpoint take_loop (n : Z) (got buf : list Z) (evs : list event) : poll (list Z) * areader :=
  if n <=? len buf then (Ready (Ok (got ++ firstn (Z.to_nat n) buf)), mk_areader (skipn (Z.to_nat n) buf) evs)
  else match evs with
       | [] => (Ready (Err EEof), mk_areader [] [])
       | Wait :: r => (Pending, mk_areader [] r)
       | Chunk [] :: r => (Ready (Err EEof), mk_areader [] r)
       | Chunk c :: r => take_loop (n - len buf) (got ++ buf) c r
       end.
Definition poll_read_exact (s : areader) (n : Z) : poll (list Z) * areader := take_loop n [] (ar_buf s) (ar_events s).

(** One poll of a fresh [read_n_bytes_exact], [src/hdu/data/mod.rs] lines 64-101. *)
Definition skip_end (n : Z) : res unit := if n =? 0 then Ok tt else Err EStatic.
Fixpoint skip_loop (n : Z) (buf : list Z) (evs : list event) : poll unit * areader :=
  if (1 <=? len buf) && (n <=? len buf) then (Ready (Ok tt), mk_areader (skipn (Z.to_nat n) buf) evs)
  else match evs with
       | [] => (Ready (skip_end (n - len buf)), mk_areader [] [])
       | Wait :: r => (Pending, mk_areader [] r)
       | Chunk [] :: r => (Ready (skip_end (n - len buf)), mk_areader [] r)
       | Chunk c :: r => skip_loop (n - len buf) c r
       end.
Definition poll_skip (s : areader) (n : Z) : poll unit * areader := skip_loop n (ar_buf s) (ar_events s).

(** ** Headers *)

(** [src/hdu/mod.rs] lines 79-111 with [consume_next_card_async] ([src/hdu/header/mod.rs] lines 36-47):
    [consume_cards_async].  The loop runs at most once per 80 bytes; running out of [fuel], a [Panic], is unreachable. *)
Fixpoint aconsume_loop (fuel : nat) (s : areader) (nread : Z) (acc : list card) : poll (list card) * Z * areader :=
  match fuel with
  | O => (Ready Panic, nread, s)
  | S f =>
    match poll_read_exact s 80 with
    | (Pending, s') => (Pending, nread, s')
    | (Ready (Ok buf), s') =>
      match parse_card buf with
      | Ok CEnd => (Ready (Ok (rev (CEnd :: acc))), nread + 80, s')
      | Ok c => aconsume_loop f s' (nread + 80) (c :: acc)
      | Err _ => aconsume_loop f s' (nread + 80) (CUndefined (utf8_lossy buf) :: acc)
      | Panic => (Ready Panic, nread + 80, s')
      end
    | (Ready (Err _), s') => (Ready (Err EStatic), nread + 80, s')
    | (Ready Panic, s') => (Ready Panic, nread + 80, s')
    end
  end.
Definition aconsume_cards (s : areader) : poll (list card) * Z * areader :=
  aconsume_loop (S (length (content s))) s 0 [].

(** [src/async_fits.rs] lines 206-213 and [src/hdu/mod.rs] lines 204-210: the variant and the header; there is no
    offset. *)
Record ahdu := mk_ahdu { a_kind : hkind; a_cards : list card; a_values : vmap; a_xt : xtension }.

(** [src/async_fits.rs] lines 220-247: [AsyncHDU::new]. *)
Definition ahdu_new (m : mode) (kind : hkind) (k : xtype) (s : areader) (nread : Z) (cards : list card)
  : poll ahdu * areader :=
  match (let! vs := process_cards m cards in
         let! x := xt_parse m k vs in Ok (vs, x)) with
  | Ok (vs, x) =>
    if nread mod 2880 =? 0 then (Ready (Ok (mk_ahdu kind cards vs x)), s)
    else
      match poll_read_exact s (2880 - nread mod 2880) with
      | (Ready (Ok _), s') => (Ready (Ok (mk_ahdu kind cards vs x)), s')
      | (Ready _, s') => (Ready (Err EStatic), s')
      | (Pending, s') => (Pending, s')
      end
  | Err e => (Ready (Err e), s)
  | Panic => (Ready Panic, s)
  end.

(** [src/hdu/mod.rs] lines 213-252: [AsyncHDU::new_xtension]. *)
Definition anew_xtension (m : mode) (s : areader) : poll ahdu * areader :=
  match aconsume_cards s with
  | (Ready (Ok cards), n, s') =>
    match cards with
    | [] => (Ready Panic, s')
    | CXtension XImage _ :: _ => ahdu_new m HImage XImage s' n cards
    | CXtension XBinTable _ :: _ => ahdu_new m HBinTable XBinTable s' n cards
    | CXtension XAsciiTable _ :: _ => ahdu_new m HAsciiTable XAsciiTable s' n cards
    | _ :: _ => (Ready (Err EStatic), s')
    end
  | (Ready (Err e), _, s') => (Ready (Err e), s')
  | (Ready Panic, _, s') => (Ready Panic, s')
  | (Pending, _, s') => (Pending, s')
  end.

(** [src/hdu/mod.rs] lines 254-276: [AsyncHDU::new_primary].  The pattern binds the name, so every keyword will do. *)
Definition anew_primary (m : mode) (s : areader) : poll ahdu * areader :=
  match aconsume_cards s with
  | (Ready (Ok cards), n, s') =>
    match cards with
    | [] => (Ready Panic, s')
    | CValue _ (VLogical true _) :: _ => ahdu_new m HPrimary XImage s' n cards
    | _ :: _ => (Ready (Err EStatic), s')
    end
  | (Ready (Err e), _, s') => (Ready (Err e), s')
  | (Ready Panic, _, s') => (Ready Panic, s')
  | (Pending, _, s') => (Pending, s')
  end.

(** ** The stream of HDUs *)

(** [src/async_fits.rs] lines 17-30. *)
Record afits := mk_afits { af_start : bool; af_rem : Z; af_num : Z; af_error : bool; af_reader : areader }.

(** [src/async_fits.rs] lines 37-45. *)
Definition afrom_reader (s : areader) : afits := mk_afits true 0 0 false s.

(** [src/async_fits.rs] lines 57-94: one poll of a fresh [consume_until_next_hdu]; [Ok true]: the end of the source. *)
Definition aconsume_until (f : afits) : poll bool * areader :=
  let '(p, s1) := if 0 <? af_rem f then poll_skip (af_reader f) (af_rem f) else (Ready (Ok tt), af_reader f) in
  match p with
  | Ready (Ok _) =>
    let '(q, s2) := if af_num f mod 2880 =? 0 then (Ready (Ok []), s1)
                    else poll_read_exact s1 (2880 - af_num f mod 2880) in
    match q with
    | Ready (Ok _) =>
      match poll_fill s2 with
      | (Ready (Ok b), s3) => (Ready (Ok match b with [] => true | _ => false end), s3)
      | (Ready (Err e), s3) => (Ready (Err e), s3)
      | (Ready Panic, s3) => (Ready Panic, s3)
      | (Pending, s3) => (Pending, s3)
      end
    | Ready (Err EEof) => (Ready (Ok true), s2)
    | Ready (Err e) => (Ready (Err e), s2)
    | Ready Panic => (Ready Panic, s2)
    | Pending => (Pending, s2)
    end
  | Ready (Err e) => (Ready (Err e), s1)
  | Ready Panic => (Ready Panic, s1)
  | Pending => (Pending, s1)
  end.

(** Result of [Stream::poll_next]. *)
Inductive aitem := APending | ANone | AOk (h : ahdu) | AErr (e : error) | APanic.

Definition af_set_reader (f : afits) (s : areader) : afits :=
  mk_afits (af_start f) (af_rem f) (af_num f) (af_error f) s.

(** [src/async_fits.rs] lines 131-203: [poll_next].  The futures are made anew by every call. *)
Definition poll_next (m : mode) (f : afits) : aitem * afits :=
  if af_error f then (ANone, f)
  else
    let '(i, s) :=
      if af_start f then
        match anew_primary m (af_reader f) with
        | (Ready (Ok h), s) => (AOk h, s)
        | (Ready (Err e), s) => (AErr e, s)
        | (Ready Panic, s) => (APanic, s)
        | (Pending, s) => (APending, s)
        end
      else
        match aconsume_until f with
        | (Ready (Ok true), s) => (ANone, s)
        | (Ready (Ok false), s) =>
          match anew_xtension m s with
          | (Ready (Ok h), s) => (AOk h, s)
          | (Ready (Err e), s) => (AErr e, s)
          | (Ready Panic, s) => (APanic, s)
          | (Pending, s) => (APending, s)
          end
        | (Ready (Err e), s) => (AErr e, s)
        | (Ready Panic, s) => (APanic, s)
        | (Pending, s) => (APending, s)
        end in
    match i with
    | AOk h =>
      match xt_num_bytes m (a_xt h) with
      | Ok n => (AOk h, mk_afits false n n false s)
      | _ => (APanic, mk_afits false (af_rem f) (af_num f) false s)
      end
    | AErr e => (AErr e, mk_afits false (af_rem f) (af_num f) true s)
    | ANone => (ANone, mk_afits false (af_rem f) (af_num f) false s)
    | APending => (APending, af_set_reader f s)
    | APanic => (APanic, af_set_reader f s)
    end.

(** ** Data streams *)

(** Result of [St::poll_next]. *)
Inductive sitem := SPending | SEnd | SItem (v : Z) | SErr (e : error) | SPanic.

(** [src/hdu/data/stream.rs] lines 55-235, for the element type of [b]; [get_data] ([src/async_fits.rs] lines 96-114,
    [src/hdu/data/image.rs] lines 113-127 and the like for tables, which are read as u8) gives a stream that holds nothing but references to
    the count and the reader of the [AsyncFits]. *)
Definition item_next (m : mode) (b : bitpix) (f : afits) : sitem * afits :=
  if af_rem f =? 0 then (SEnd, f)
  else
    match poll_read_exact (af_reader f) (byte_size b) with
    | (Pending, s) => (SPending, af_set_reader f s)
    | (Ready (Ok buf), s) =>
      match u64_result m (af_rem f - byte_size b) with
      | Ok r => (SItem (decode b buf), mk_afits (af_start f) r (af_num f) (af_error f) s)
      | _ => (SPanic, af_set_reader f s)
      end
    | (Ready (Err e), s) => (SErr e, af_set_reader f s)
    | (Ready Panic, s) => (SPanic, af_set_reader f s)
    end.

(** A series of polls of both kinds. *)
Inductive aop := ONext | OItem (b : bitpix).
Inductive aresult := RNext (i : aitem) | RItem (i : sitem).
Definition astep (m : mode) (f : afits) (op : aop) : aresult * afits :=
  match op with
  | ONext => let (i, f') := poll_next m f in (RNext i, f')
  | OItem b => let (i, f') := item_next m b f in (RItem i, f')
  end.
Fixpoint arun (m : mode) (f : afits) (ops : list aop) : list aresult * afits :=
  match ops with
  | [] => ([], f)
  | op :: r => let (x, f1) := astep m f op in let (l, f2) := arun m f1 r in (x :: l, f2)
  end.
