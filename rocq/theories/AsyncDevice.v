(** Model of the asynchronous reader over a source that can fail: the same code as [Async.v] models, with the
    branches that only an I/O error other than the end of the source reaches. *)

From Verif Require Import Base Utf8 Text Card Reader Header Xtension Fits Bytes Async.

(** The polls of the source: not ready, some bytes, or an error whose kind is neither [UnexpectedEof] nor
    [Interrupted]. *)
Inductive fevent := FWait | FChunk (c : list Z) | FFail.
Record freader := mk_freader { fr_buf : list Z; fr_events : list fevent }.
Definition fchunk_of (e : fevent) : list Z := match e with FChunk c => c | _ => [] end.
Definition fcontent (s : freader) : list Z := fr_buf s ++ flat_map fchunk_of (fr_events s).

(** [AsyncBufRead::poll_fill_buf], as [poll_fill]. *)
Definition fpoll_fill (s : freader) : poll (list Z) * freader :=
  match fr_buf s with
  | [] => match fr_events s with
          | [] => (Ready (Ok []), s)
          | FWait :: r => (Pending, mk_freader [] r)
          | FChunk c :: r => (Ready (Ok c), mk_freader c r)
          | FFail :: r => (Ready (Err EIoOther), mk_freader [] r)
          end
  | b => (Ready (Ok b), s)
  end.

(** [AsyncReadExt::read_exact], as [poll_read_exact]. *)
Fixpoint ftake_loop (n : Z) (got buf : list Z) (evs : list fevent) : poll (list Z) * freader :=
  if n <=? len buf then (Ready (Ok (got ++ firstn (Z.to_nat n) buf)), mk_freader (skipn (Z.to_nat n) buf) evs)
  else match evs with
       | [] => (Ready (Err EEof), mk_freader [] [])
       | FWait :: r => (Pending, mk_freader [] r)
       | FFail :: r => (Ready (Err EIoOther), mk_freader [] r)
       | FChunk [] :: r => (Ready (Err EEof), mk_freader [] r)
       | FChunk c :: r => ftake_loop (n - len buf) (got ++ buf) c r
       end.
Definition fpoll_read_exact (s : freader) (n : Z) : poll (list Z) * freader := ftake_loop n [] (fr_buf s) (fr_events s).

(** [src/hdu/data/mod.rs] lines 64-101, as [poll_skip]. *)
Fixpoint fskip_loop (n : Z) (buf : list Z) (evs : list fevent) : poll unit * freader :=
  if (1 <=? len buf) && (n <=? len buf) then (Ready (Ok tt), mk_freader (skipn (Z.to_nat n) buf) evs)
  else match evs with
       | [] => (Ready (skip_end (n - len buf)), mk_freader [] [])
       | FWait :: r => (Pending, mk_freader [] r)
       | FFail :: r => (Ready (Err EStatic), mk_freader [] r)
       | FChunk [] :: r => (Ready (skip_end (n - len buf)), mk_freader [] r)
       | FChunk c :: r => fskip_loop (n - len buf) c r
       end.
Definition fpoll_skip (s : freader) (n : Z) : poll unit * freader := fskip_loop n (fr_buf s) (fr_events s).

(** [src/hdu/mod.rs] lines 79-111 with [consume_next_card_async] ([src/hdu/header/mod.rs] lines 36-47):
    [consume_cards_async].  The loop runs at most once per 80 bytes; running out of [fuel], a [Panic], is unreachable. *)
Fixpoint fconsume_loop (fuel : nat) (s : freader) (nread : Z) (acc : list card) : poll (list card) * Z * freader :=
  match fuel with
  | O => (Ready Panic, nread, s)
  | S f =>
    match fpoll_read_exact s 80 with
    | (Pending, s') => (Pending, nread, s')
    | (Ready (Ok buf), s') =>
      match parse_card buf with
      | Ok CEnd => (Ready (Ok (rev (CEnd :: acc))), nread + 80, s')
      | Ok c => fconsume_loop f s' (nread + 80) (c :: acc)
      | Err _ => fconsume_loop f s' (nread + 80) (CUndefined (utf8_lossy buf) :: acc)
      | Panic => (Ready Panic, nread + 80, s')
      end
    | (Ready (Err _), s') => (Ready (Err EStatic), nread + 80, s')
    | (Ready Panic, s') => (Ready Panic, nread + 80, s')
    end
  end.
Definition fconsume_cards (s : freader) : poll (list card) * Z * freader :=
  fconsume_loop (S (length (fcontent s))) s 0 [].

(** [src/async_fits.rs] lines 220-247: [AsyncHDU::new]. *)
Definition fhdu_new (m : mode) (kind : hkind) (k : xtype) (s : freader) (nread : Z) (cards : list card)
  : poll ahdu * freader :=
  match (let! vs := process_cards m cards in
         let! x := xt_parse m k vs in Ok (vs, x)) with
  | Ok (vs, x) =>
    if nread mod 2880 =? 0 then (Ready (Ok (mk_ahdu kind cards vs x)), s)
    else
      match fpoll_read_exact s (2880 - nread mod 2880) with
      | (Ready (Ok _), s') => (Ready (Ok (mk_ahdu kind cards vs x)), s')
      | (Ready _, s') => (Ready (Err EStatic), s')
      | (Pending, s') => (Pending, s')
      end
  | Err e => (Ready (Err e), s)
  | Panic => (Ready Panic, s)
  end.

(** [src/hdu/mod.rs] lines 213-252: [AsyncHDU::new_xtension]. *)
Definition fnew_xtension (m : mode) (s : freader) : poll ahdu * freader :=
  match fconsume_cards s with
  | (Ready (Ok cards), n, s') =>
    match cards with
    | [] => (Ready Panic, s')
    | CXtension XImage _ :: _ => fhdu_new m HImage XImage s' n cards
    | CXtension XBinTable _ :: _ => fhdu_new m HBinTable XBinTable s' n cards
    | CXtension XAsciiTable _ :: _ => fhdu_new m HAsciiTable XAsciiTable s' n cards
    | _ :: _ => (Ready (Err EStatic), s')
    end
  | (Ready (Err e), _, s') => (Ready (Err e), s')
  | (Ready Panic, _, s') => (Ready Panic, s')
  | (Pending, _, s') => (Pending, s')
  end.

(** [src/hdu/mod.rs] lines 254-276: [AsyncHDU::new_primary].  The pattern binds the name, so every keyword will do. *)
Definition fnew_primary (m : mode) (s : freader) : poll ahdu * freader :=
  match fconsume_cards s with
  | (Ready (Ok cards), n, s') =>
    match cards with
    | [] => (Ready Panic, s')
    | CValue _ (VLogical true _) :: _ => fhdu_new m HPrimary XImage s' n cards
    | _ :: _ => (Ready (Err EStatic), s')
    end
  | (Ready (Err e), _, s') => (Ready (Err e), s')
  | (Ready Panic, _, s') => (Ready Panic, s')
  | (Pending, _, s') => (Pending, s')
  end.

(** [src/async_fits.rs] lines 17-30. *)
Record ffits := mk_ffits { ff_start : bool; ff_rem : Z; ff_num : Z; ff_error : bool; ff_reader : freader }.

(** [src/async_fits.rs] lines 37-45. *)
Definition ffrom_reader (s : freader) : ffits := mk_ffits true 0 0 false s.

(** [src/async_fits.rs] lines 57-94: one poll of a fresh [consume_until_next_hdu]; [Ok true]: the end of the source. *)
Definition fconsume_until (f : ffits) : poll bool * freader :=
  let '(p, s1) := if 0 <? ff_rem f then fpoll_skip (ff_reader f) (ff_rem f) else (Ready (Ok tt), ff_reader f) in
  match p with
  | Ready (Ok _) =>
    let '(q, s2) := if ff_num f mod 2880 =? 0 then (Ready (Ok []), s1)
                    else fpoll_read_exact s1 (2880 - ff_num f mod 2880) in
    match q with
    | Ready (Ok _) =>
      match fpoll_fill s2 with
      | (Ready (Ok b), s3) => (Ready (Ok match b with [] => true | _ => false end), s3)
      | (Ready (Err e), s3) => (Ready (Err e), s3)
      | (Ready Panic, s3) => (Ready Panic, s3)
      | (Pending, s3) => (Pending, s3)
      end
    | Ready (Err EEof) => (Ready (Ok true), s2)
    | Ready (Err e) => (Ready (Err e), s2)
    | Ready Panic => (Ready Panic, s2)
    | Pending => (Pending, s2)
    end
  | Ready (Err e) => (Ready (Err e), s1)
  | Ready Panic => (Ready Panic, s1)
  | Pending => (Pending, s1)
  end.

Definition ff_set_reader (f : ffits) (s : freader) : ffits :=
  mk_ffits (ff_start f) (ff_rem f) (ff_num f) (ff_error f) s.

(** [src/async_fits.rs] lines 131-203: [poll_next].  The futures are made anew by every call. *)
Definition fpoll_next (m : mode) (f : ffits) : aitem * ffits :=
  if ff_error f then (ANone, f)
  else
    let '(i, s) :=
      if ff_start f then
        match fnew_primary m (ff_reader f) with
        | (Ready (Ok h), s) => (AOk h, s)
        | (Ready (Err e), s) => (AErr e, s)
        | (Ready Panic, s) => (APanic, s)
        | (Pending, s) => (APending, s)
        end
      else
        match fconsume_until f with
        | (Ready (Ok true), s) => (ANone, s)
        | (Ready (Ok false), s) =>
          match fnew_xtension m s with
          | (Ready (Ok h), s) => (AOk h, s)
          | (Ready (Err e), s) => (AErr e, s)
          | (Ready Panic, s) => (APanic, s)
          | (Pending, s) => (APending, s)
          end
        | (Ready (Err e), s) => (AErr e, s)
        | (Ready Panic, s) => (APanic, s)
        | (Pending, s) => (APending, s)
        end in
    match i with
    | AOk h =>
      match xt_num_bytes m (a_xt h) with
      | Ok n => (AOk h, mk_ffits false n n false s)
      | _ => (APanic, mk_ffits false (ff_rem f) (ff_num f) false s)
      end
    | AErr e => (AErr e, mk_ffits false (ff_rem f) (ff_num f) true s)
    | ANone => (ANone, mk_ffits false (ff_rem f) (ff_num f) false s)
    | APending => (APending, ff_set_reader f s)
    | APanic => (APanic, ff_set_reader f s)
    end.

(** [src/hdu/data/stream.rs] lines 55-235, for the element type of [b]; [get_data] ([src/async_fits.rs] lines 96-114,
    [src/hdu/data/image.rs] lines 113-127 and the like for tables, which are read as u8) gives a stream that holds nothing but references to
    the count and the reader of the [AsyncFits]. *)
Definition fitem_next (m : mode) (b : bitpix) (f : ffits) : sitem * ffits :=
  if ff_rem f =? 0 then (SEnd, f)
  else
    match fpoll_read_exact (ff_reader f) (byte_size b) with
    | (Pending, s) => (SPending, ff_set_reader f s)
    | (Ready (Ok buf), s) =>
      match u64_result m (ff_rem f - byte_size b) with
      | Ok r => (SItem (decode b buf), mk_ffits (ff_start f) r (ff_num f) (ff_error f) s)
      | _ => (SPanic, ff_set_reader f s)
      end
    | (Ready (Err e), s) => (SErr e, ff_set_reader f s)
    | (Ready Panic, s) => (SPanic, ff_set_reader f s)
    end.

Definition fstep (m : mode) (f : ffits) (op : aop) : aresult * ffits :=
  match op with
  | ONext => let (i, f') := fpoll_next m f in (RNext i, f')
  | OItem b => let (i, f') := fitem_next m b f in (RItem i, f')
  end.
Fixpoint frun (m : mode) (f : ffits) (ops : list aop) : list aresult * ffits :=
  match ops with
  | [] => ([], f)
  | op :: r => let (x, f1) := fstep m f op in let (l, f2) := frun m f1 r in (x :: l, f2)
  end.

