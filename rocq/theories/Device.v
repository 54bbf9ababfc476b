(** Models of the readers of headers and images over a device that can fail: the same code as [Fits.v] and
    [ImageIt.v] model over an in-memory source, with the branches that only an error of the device reaches.

    A call on the device is one [read_exact], [stream_position] or [seek_relative] ([read_exact] repeats
    interrupted reads itself).  What the device does is a list with one entry per call: [None], it works;
    [Some k], it fails with an error whose kind is not [UnexpectedEof], and the position has moved by [k].
    Behind the end of the list it works. *)

From Verif Require Import Base Text Card Reader Header Xtension Bytes Fits ImageIt Utf8.

Definition faults := list (option Z).

(** One call [c] on the device, whose reader is [r]. *)
Definition device_call {A} (fs : faults) (r : reader) (c : reader -> res A * reader) : res A * reader * faults :=
  match fs with
  | [] => (c r, [])
  | None :: fs' => (c r, fs')
  | Some k :: fs' => (Err EIoOther, mk_reader (rd_data r) (rd_pos r + k), fs')
  end.
Definition dev_read (fs : faults) (r : reader) (n : Z) := device_call fs r (fun r => read_exact r n).
Definition dev_seek (fs : faults) (r : reader) (off : Z) := device_call fs r (fun r => seek_relative r off).
Definition dev_position (fs : faults) (r : reader) := device_call fs r (fun r => (Ok (rd_pos r), r)).

(** [src/hdu/mod.rs] lines 48-77 and [src/hdu/header/mod.rs] lines 25-34, as [consume_loop]. *)
Fixpoint dev_consume_loop (fuel : nat) (fs : faults) (r : reader) (nread : Z) (acc : list card)
  : res (list card) * Z * reader * faults :=
  match fuel with
  | O => (Panic, nread, r, fs)
  | S f =>
    match dev_read fs r 80 with
    | (Ok buf, r', fs') =>
      match parse_card buf with
      | Ok CEnd => (Ok (rev (CEnd :: acc)), nread + 80, r', fs')
      | Ok c => dev_consume_loop f fs' r' (nread + 80) (c :: acc)
      | Err _ => dev_consume_loop f fs' r' (nread + 80) (CUndefined (utf8_lossy buf) :: acc)
      | Panic => (Panic, nread + 80, r', fs')
      end
    | (Err e, r', fs') => (Err e, nread, r', fs')
    | (Panic, r', fs') => (Panic, nread, r', fs')
    end
  end.
Definition dev_consume_cards (fs : faults) (r : reader) (nread : Z) :=
  dev_consume_loop (S (length (rd_data r))) fs r nread [].

(** [src/fits.rs] lines 179-211, as [hdu_new]: any error while the padding of the header is read is replaced. *)
Definition dev_hdu_new (m : mode) (kind : hkind) (k : xtype) (fs : faults) (r : reader) (nread : Z)
  (cards : list card) : res hdu * Z * reader * faults :=
  match (let! vs := process_cards m cards in
         let! x := xt_parse m k vs in Ok (vs, x)) with
  | Ok (vs, x) =>
    if nread mod 2880 =? 0 then (Ok (mk_hdu kind cards vs x (rd_pos r)), nread, r, fs)
    else
      let off := 2880 - nread mod 2880 in
      match dev_read fs r off with
      | (Ok _, r', fs') => (Ok (mk_hdu kind cards vs x (rd_pos r')), nread + off, r', fs')
      | (_, r', fs') => (Err EStatic, nread, r', fs')
      end
  | Err e => (Err e, nread, r, fs)
  | Panic => (Panic, nread, r, fs)
  end.

(** [src/hdu/mod.rs] lines 114-153, as [new_xtension]. *)
Definition dev_new_xtension (m : mode) (fs : faults) (r : reader) : res hdu * Z * reader * faults :=
  match dev_consume_cards fs r 0 with
  | (Ok cards, n, r', fs') =>
    match cards with
    | [] => (Panic, n, r', fs')
    | CXtension XImage _ :: _ => dev_hdu_new m HImage XImage fs' r' n cards
    | CXtension XBinTable _ :: _ => dev_hdu_new m HBinTable XBinTable fs' r' n cards
    | CXtension XAsciiTable _ :: _ => dev_hdu_new m HAsciiTable XAsciiTable fs' r' n cards
    | _ :: _ => (Err EStatic, n, r', fs')
    end
  | (Err e, n, r', fs') => (Err e, n, r', fs')
  | (Panic, n, r', fs') => (Panic, n, r', fs')
  end.

(** [src/hdu/mod.rs] lines 155-186, as [new_primary]. *)
Definition dev_new_primary (m : mode) (fs : faults) (r : reader) : res hdu * Z * reader * faults :=
  match dev_consume_cards fs r 0 with
  | (Ok cards, n, r', fs') =>
    match cards with
    | [] => (Panic, n, r', fs')
    | CValue name (VLogical true _) :: _ =>
      if str_eqb name (chars "SIMPLE") then dev_hdu_new m HPrimary XImage fs' r' n cards
      else (Err EDynamic, n, r', fs')
    | _ :: _ => (Err EStatic, n, r', fs')
    end
  | (Err e, n, r', fs') => (Err e, n, r', fs')
  | (Panic, n, r', fs') => (Panic, n, r', fs')
  end.

(** [src/fits.rs] lines 61-78, as [consume_until_next_hdu]. *)
Definition dev_consume_until_next_hdu (m : mode) (f : fits) (fs : faults) : res unit * reader * faults :=
  let n := f_num_du f in
  match dev_position fs (f_reader f) with
  | (Ok pos, r, fs') =>
    match (let! consumed := u64_result m (pos - f_pos_du f) in
           let! skip := u64_result m (n - consumed) in
           if n mod 2880 =? 0 then Ok skip else u64_result m (skip + (2880 - n mod 2880))) with
    | Ok skip => dev_seek fs' r (as_i64 skip)
    | Err e => (Err e, r, fs')
    | Panic => (Panic, r, fs')
    end
  | (Err e, r, fs') => (Err e, r, fs')
  | (Panic, r, fs') => (Panic, r, fs')
  end.

(** [src/fits.rs] lines 114-161, as [next]: of the errors of a device only [UnexpectedEof] can be taken for
    the end of the file. *)
Definition dev_next (m : mode) (f : fits) (fs : faults) : item * fits * faults :=
  if f_error f then (INone, f, fs)
  else
    let '(n, r, fs') :=
      if f_start f then
        match dev_new_primary m fs (f_reader f) with
        | (Ok h, _, r, fs') => (IOk h, r, fs')
        | (Err e, _, r, fs') => (IErr e, r, fs')
        | (Panic, _, r, fs') => (IPanic, r, fs')
        end
      else
        match dev_consume_until_next_hdu m f fs with
        | (Ok _, r, fs1) =>
          match dev_new_xtension m fs1 r with
          | (Ok h, _, r', fs') => (IOk h, r', fs')
          | (Err EEof, nread, r', fs') => (if nread =? 0 then INone else IErr EEof, r', fs')
          | (Err e, _, r', fs') => (IErr e, r', fs')
          | (Panic, _, r', fs') => (IPanic, r', fs')
          end
        | (Err e, r, fs') => (IErr e, r, fs')
        | (Panic, r, fs') => (IPanic, r, fs')
        end in
    match n with
    | IOk h =>
      match hdu_size m h with
      | Ok size => (IOk h, mk_fits false (h_offset h) size false r, fs')
      | _ => (IPanic, mk_fits false (f_pos_du f) (f_num_du f) false r, fs')
      end
    | IErr e => (IErr e, mk_fits false (f_pos_du f) (f_num_du f) true r, fs')
    | INone => (INone, mk_fits false (f_pos_du f) (f_num_du f) false r, fs')
    | IPanic => (IPanic, mk_fits false (f_pos_du f) (f_num_du f) false r, fs')
    end.

(** The items produced by [n] calls. *)
Fixpoint dev_run (m : mode) (n : nat) (f : fits) (fs : faults) : list item * fits * faults :=
  match n with
  | O => ([], f, fs)
  | S n' =>
    let '(i, f', fs') := dev_next m f fs in
    let '(l, f'', fs'') := dev_run m n' f' fs' in (i :: l, f'', fs'')
  end.

(** [src/hdu/data/iter.rs] lines 10-42, as [read_be]. *)
Definition dev_read_be (b : bitpix) (fs : faults) (r : reader) : res Z * reader * faults :=
  match dev_read fs r (byte_size b) with
  | (Ok bs, r', fs') => (Ok (decode b bs), r', fs')
  | (Err e, r', fs') => (Err e, r', fs')
  | (Panic, r', fs') => (Panic, r', fs')
  end.

(** Lines 112-121, as [it_next]: the kind of the error is lost. *)
Definition dev_it_next (s : it) (fs : faults) : option Z * it * faults :=
  if it_idx s =? it_num s then (None, s, fs)
  else
    let '(v, r, fs') := dev_read_be (it_ty s) fs (it_reader s) in
    (match v with Ok x => Some x | _ => None end, mk_it (it_ty s) r (it_num s) (it_idx s + 1), fs').

(** Lines 135-151, as [read_value]. *)
Definition dev_read_value (m : mode) (s : it) (fs : faults) (idx : Z) : res Z * it * faults :=
  if it_num s <=? idx then (Err EStatic, s, fs)
  else
    match (let! d := i64_result m (as_i64 idx - as_i64 (it_idx s)) in
           i64_result m (d * byte_size (it_ty s))) with
    | Ok off =>
      match dev_seek fs (it_reader s) off with
      | (Ok _, r, fs') =>
        match dev_it_next (mk_it (it_ty s) r (it_num s) idx) fs' with
        | (Some v, s', fs') => (Ok v, s', fs')
        | (None, s', fs') => (Err EStatic, s', fs')
        end
      | (Err e, r, fs') => (Err e, mk_it (it_ty s) r (it_num s) (it_idx s), fs')
      | (Panic, r, fs') => (Panic, mk_it (it_ty s) r (it_num s) (it_idx s), fs')
      end
    | Err e => (Err e, s, fs)
    | Panic => (Panic, s, fs)
    end.
